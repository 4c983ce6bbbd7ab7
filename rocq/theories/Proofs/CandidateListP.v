(** Proofs about setupList. *)
From Verif Require Import Prelude Model.CandidateList.
From Coq Require Import Permutation.

Definition layout (ids : list nat) (f : nat) (O : list nat) : list (option nat) := map Some ids ++ repeat None f ++ map Some O.
Lemma layout_length ids f O : length (layout ids f O) = (length ids + f + length O)%nat.
Proof. unfold layout. rewrite !app_length, !map_length, repeat_length. lia. Qed.
Lemma aset_mid {A} (l1 : list A) x l2 y : aset (l1 ++ x :: l2) (length l1) y = Some (l1 ++ y :: l2).
Proof.
  unfold aset. rewrite app_length. cbn [length]. destruct (Nat.ltb_spec (length l1) (length l1 + S (length l2))); [|lia].
  f_equal. rewrite firstn_app, Nat.sub_diag, firstn_all. cbn [firstn]. rewrite app_nil_r. f_equal. f_equal.
  rewrite skipn_app, skipn_all2 by lia. replace (S (length l1) - length l1)%nat with 1%nat by lia. reflexivity.
Qed.
Lemma aset_at {A} (L : list A) l1 x l2 j y : L = l1 ++ x :: l2 -> j = length l1 -> aset L j y = Some (l1 ++ y :: l2).
Proof. intros -> ->. apply aset_mid. Qed.
Lemma nth_mid {A} (l1 : list A) x l2 : nth_error (l1 ++ x :: l2) (length l1) = Some x.
Proof. rewrite nth_error_app2, Nat.sub_diag by lia. reflexivity. Qed.
Lemma repeat_last {A} (x : A) n : repeat x (S n) = repeat x n ++ [x].
Proof. induction n as [|n IH]; [reflexivity|]. cbn [repeat app] in *. rewrite <- IH. reflexivity. Qed.
Lemma put_end_layout ids f O x : put_end (layout ids (S f) O) (length ids + S f) x = Some (layout ids f (x :: O), (length ids + f)%nat).
Proof.
  unfold put_end. replace (length ids + S f)%nat with (S (length ids + f)) by lia.
  assert (E : layout ids (S f) O = (map Some ids ++ repeat None f) ++ None :: map Some O).
  { unfold layout. rewrite repeat_last, <- !app_assoc. reflexivity. }
  assert (Le : (length ids + f = length (map (@Some nat) ids ++ repeat None f))%nat) by (rewrite app_length, map_length, repeat_length; reflexivity).
  rewrite E, Le, nth_mid, aset_mid, <- app_assoc. reflexivity.
Qed.
Lemma flush_none j ids f O U : forall k, (k + j <= length ids + f)%nat -> (length ids <= k)%nat ->
  flush (k + j) (layout ids f O) U (length ids + f) = flush k (layout ids f O) U (length ids + f).
Proof.
  induction j as [|j IH]; intros k H1 H2; [rewrite Nat.add_0_r; reflexivity|]. rewrite <- plus_n_Sm. cbn [flush].
  assert (N : nth_error (layout ids f O) (k + j) = Some None).
  { unfold layout. rewrite nth_error_app2 by (rewrite map_length; lia). rewrite map_length, nth_error_app1 by (rewrite repeat_length; lia).
    apply nth_error_repeat. lia. }
  rewrite N. apply IH; lia.
Qed.
Lemma flush_layout : forall ids f O U, (length ids <= length U)%nat ->
  exists U', flush (length ids) (layout ids f O) U (length ids + f) = Some (layout [] f (ids ++ O), U', f) /\ length U' = length U.
Proof.
  induction ids as [|x ids IH] using rev_ind; intros f O U HU; [exists U; split; reflexivity|].
  rewrite app_length in *. cbn [length] in *. replace (length ids + 1)%nat with (S (length ids)) in * by lia. cbn [flush].
  assert (E : layout (ids ++ [x]) f O = map Some ids ++ Some x :: repeat None f ++ map Some O) by (unfold layout; rewrite map_app, <- app_assoc; reflexivity).
  assert (N : nth_error (layout (ids ++ [x]) f O) (length ids) = Some (Some x)) by (rewrite E; replace (length ids) with (length (map (@Some nat) ids)) by apply map_length; apply nth_mid).
  rewrite N. rewrite (aset_at _ _ _ _ _ _ E) by (rewrite map_length; reflexivity).
  destruct (nth_error U (length ids)) as [u|] eqn:NU; [|apply nth_error_None in NU; lia]. apply nth_error_split in NU. destruct NU as (u1 & u2 & -> & LU).
  rewrite (aset_at _ u1 u u2 _ _ eq_refl (eq_sym LU)). cbn [Nat.add].
  assert (E2 : map Some ids ++ None :: repeat None f ++ map Some O = (map Some ids ++ repeat None f) ++ None :: map Some O).
  { rewrite <- app_assoc. f_equal. change (None :: repeat None f ++ map Some O) with (repeat None (S f) ++ map (@Some nat) O). rewrite repeat_last, <- app_assoc. reflexivity. }
  rewrite (aset_at _ _ _ _ _ _ E2) by (rewrite app_length, map_length, repeat_length; reflexivity).
  change (Some x :: map Some O) with (map Some (x :: O)). rewrite <- app_assoc. change (map Some ids ++ repeat None f ++ map Some (x :: O)) with (layout ids f (x :: O)).
  destruct (IH f (x :: O) (u1 ++ 0 :: u2)) as (U' & F & LU'); [rewrite app_length in *; cbn [length] in *; lia|].
  exists U'. split; [rewrite F, <- app_assoc; reflexivity|]. rewrite LU', !app_length. reflexivity.
Qed.

(** Finding the worst. *)
Definition occupied (L : list (option nat)) (U : list Q) (j : nat) (v : Q) : Prop := (exists x, nth_error L j = Some (Some x)) /\ nth_error U j = Some v.
Lemma worst_stop L U : forall l1 j r c idx, (forall i, In i l1 -> exists v, occupied L U i v) -> nth_error L j = Some None -> (j < length U)%nat ->
  find_worst L U (l1 ++ j :: r) c idx = Some (ChkAt 0, j).
Proof.
  induction l1 as [|i l1 IH]; intros j r c idx H N B; cbn [app find_worst].
  - rewrite N. destruct (nth_error U j) eqn:E; [reflexivity|]. apply nth_error_None in E. lia.
  - destruct (H i (or_introl eq_refl)) as (v & (x & ->) & ->). destruct (below_chk v c); apply IH; try assumption; intros; apply H; right; assumption.
Qed.
Lemma worst_min L U : forall l c idx, (forall i, In i l -> exists v, occupied L U i v) ->
  exists c' idx', find_worst L U l c idx = Some (c', idx') /\
    (forall i v, In i l -> occupied L U i v -> below_chk v c' = false) /\
    (forall v, below_chk v c = false -> below_chk v c' = false) /\
    ((c' = c /\ idx' = idx) \/ (In idx' l /\ exists v, c' = ChkAt v /\ nth_error U idx' = Some v)).
Proof.
  induction l as [|i l IH]; intros c idx H; cbn [find_worst].
  - exists c, idx. split; [reflexivity|]. split; [intros ? ? []|]. split; [auto|left; auto].
  - destruct (H i (or_introl eq_refl)) as (v & (x & Ex) & Ev). rewrite Ex, Ev.
    assert (H' : forall j, In j l -> exists w, occupied L U j w) by (intros; apply H; right; assumption).
    destruct (below_chk v c) eqn:B.
    + destruct (IH (ChkAt v) i H') as (c' & idx' & F & M & Mono & K). exists c', idx'. split; [exact F|].
      assert (Vv : below_chk v (ChkAt v) = false) by (cbn [below_chk]; destruct (Qltb_reflect v v); [lra|reflexivity]).
      split; [|split].
      * intros j w [<-|Hj] [_ O2]; [rewrite Ev in O2; injection O2 as <-; apply Mono, Vv|]. apply (M j w Hj). split; [|exact O2]. destruct (H' j Hj) as (? & Y & _). exact Y.
      * intros w Hw. apply Mono. destruct c; cbn [below_chk] in *; try discriminate. destruct (Qltb_reflect v q); [|discriminate]. destruct (Qltb_reflect w q); [discriminate|].
        destruct (Qltb_reflect w v); [lra|reflexivity].
      * right. destruct K as [[-> ->]|(I1 & w & -> & E)]; [split; [left; reflexivity|]; exists v; auto|]. split; [right; exact I1|]. exists w. auto.
    + destruct (IH c idx H') as (c' & idx' & F & M & Mono & K). exists c', idx'. split; [exact F|]. split; [|split; [exact Mono|]].
      * intros j w [<-|Hj] [_ O2]; [rewrite Ev in O2; injection O2 as <-; apply Mono, B|]. apply (M j w Hj). split; [|exact O2]. destruct (H' j Hj) as (? & Y & _). exact Y.
      * destruct K as [K|(I1 & K)]; [left; exact K|right]. split; [right; exact I1|exact K].
Qed.

Section Loop.
Variable val : nat -> Q.
Variable prio : nat -> Z.
Variable ns n : nat.
Hypothesis NS : (1 <= ns)%nat.
Variable pos : Prop.

Definition no_best (bp : Z) (O : list nat) : Prop := forall o, In o O -> prio o <> bp.
Record shape (s : lst) (ids : list nat) (f : nat) (O : list nat) : Prop := {
  sh_list : ls_list s = layout ids f O;
  sh_use : firstn (length ids) (ls_useful s) = map val ids;
  sh_ulen : length (ls_useful s) = n;
  sh_n : (length ids + f + length O = n)%nat;
  sh_put : ls_put s = (length ids + f)%nat;
  sh_max : ls_max s = Nat.min ns (length ids + f);
  sh_k : (length ids <= ns)%nat
}.
Definition control (s : lst) (ids : list nat) (f : nat) (O : list nat) : Prop :=
  ((0 < length ids < ns)%nat /\ ls_idx s = length ids /\ ls_check s = ChkAt 0 /\ (pos -> no_best (ls_prio s) O)) \/
  (exists x, (0 < length ids)%nat /\ nth_error ids (ls_idx s) = Some x /\ ls_check s = ChkAt (val x) /\ (forall y, In y ids -> val x <= val y) /\
     (length ids = ns \/ (f = 0%nat /\ (pos -> no_best (ls_prio s) O)))).
Record inv (s : lst) (ids : list nat) (f : nat) (O : list nat) : Prop := {
  iv_shape : shape s ids f O;
  iv_u : ls_u s = (length ids + length O)%nat;
  iv_ids : forall x, In x ids -> prio x = ls_prio s;
  iv_O : forall x, In x O -> (ls_prio s <= prio x)%Z;
  iv_top : pos -> forall o x, In o O -> In x ids -> prio o = ls_prio s -> val o <= val x;
  iv_ctl : (ids = [] /\ O = [] /\ ls_idx s = 0%nat /\ ls_check s = ChkLow /\ ls_prio s = COIN_INT_MAX) \/ control s ids f O
}.

(** Search after a change of slot. *)
Lemma fw_control L U ids f O m idx : L = layout ids f O -> firstn (length ids) U = map val ids -> length U = n -> (length ids + f + length O = n)%nat ->
  m = Nat.min ns (length ids + f) -> (0 < length ids <= ns)%nat ->
  exists c j, find_worst L U (seq 0 m) ChkHigh idx = Some (c, j) /\
    (((length ids < ns)%nat /\ j = length ids /\ c = ChkAt 0) \/
     (exists x, nth_error ids j = Some x /\ c = ChkAt (val x) /\ (forall y, In y ids -> val x <= val y) /\ (length ids = ns \/ f = 0%nat))).
Proof.
  intros -> HU LU HN -> HK.
  assert (OC : forall i, (i < length ids)%nat -> exists x, nth_error ids i = Some x /\ nth_error (layout ids f O) i = Some (Some x) /\ nth_error U i = Some (val x)).
  { intros i Hi. destruct (nth_error ids i) as [x|] eqn:E; [|apply nth_error_None in E; lia]. exists x. split; [reflexivity|]. split.
    - unfold layout. rewrite nth_error_app1 by (rewrite map_length; exact Hi). apply map_nth_error, E.
    - assert (FE : nth_error (firstn (length ids) U) i = nth_error U i).
      { rewrite <- (firstn_skipn (length ids) U) at 2. rewrite nth_error_app1; [reflexivity|]. rewrite firstn_length. lia. }
      rewrite <- FE, HU. apply map_nth_error, E. }
  assert (OC' : forall i, In i (seq 0 (length ids)) -> exists v, occupied (layout ids f O) U i v).
  { intros i Hi. apply in_seq in Hi. destruct (OC i) as (x & _ & E1 & E2); [lia|]. exists (val x). split; [exists x; exact E1|exact E2]. }
  destruct (Nat.lt_ge_cases (length ids) (Nat.min ns (length ids + f))) as [L|L].
  - exists (ChkAt 0), (length ids). split; [|left; repeat split; lia].
    replace (Nat.min ns (length ids + f)) with (length ids + S (Nat.min ns (length ids + f) - length ids - 1))%nat by lia.
    rewrite seq_app. cbn [Nat.add seq]. apply worst_stop; [exact OC'| |lia].
    unfold layout. rewrite nth_error_app2 by (rewrite map_length; lia). rewrite map_length, Nat.sub_diag. destruct f as [|f]; [lia|reflexivity].
  - replace (Nat.min ns (length ids + f)) with (length ids) by lia.
    destruct (worst_min (layout ids f O) U (seq 0 (length ids)) ChkHigh idx OC') as (c & j & F & M & _ & K). exists c, j. split; [exact F|]. right.
    destruct K as [[-> _]|(Ij & v & -> & Ev)].
    + exfalso. destruct (OC 0%nat) as (x & _ & E1 & E2); [lia|].
      assert (B : below_chk (val x) ChkHigh = false) by (apply (M 0%nat); [apply in_seq; lia|split; [exists x; exact E1|exact E2]]). discriminate.
    + apply in_seq in Ij. destruct (OC j) as (x & E0 & E1 & E2); [lia|]. rewrite E2 in Ev. injection Ev as <-. exists x. split; [exact E0|]. split; [reflexivity|]. split; [|lia].
      intros y Hy. apply In_nth_error in Hy. destruct Hy as (i & Hi). assert (Li : (i < length ids)%nat) by (apply nth_error_Some; congruence).
      destruct (OC i Li) as (y' & F0 & F1 & F2). rewrite Hi in F0. injection F0 as <-.
      assert (B : below_chk (val y) (ChkAt (val x)) = false) by (apply (M i); [apply in_seq; lia|split; [exists y; exact F1|exact F2]]).
      cbn [below_chk] in B. destruct (Qltb_reflect (val y) (val x)); [discriminate|lra].
Qed.

(** Adding to an empty slot at the end of the strong ones. *)
Lemma add_slot (L : list (option nat)) (U : list Q) ids f O i : L = layout ids (S f) O -> firstn (length ids) U = map val ids -> length U = n -> (length ids + S f + length O = n)%nat ->
  nth_error L (length ids) = Some None /\
  exists U', aset L (length ids) (Some i) = Some (layout (ids ++ [i]) f O) /\ aset U (length ids) (val i) = Some U' /\
    firstn (length (ids ++ [i])) U' = map val (ids ++ [i]) /\ length U' = n.
Proof.
  intros -> HU LU HN. assert (E : layout ids (S f) O = map Some ids ++ None :: (repeat None f ++ map Some O)) by reflexivity.
  split; [rewrite E; replace (length ids) with (length (map (@Some nat) ids)) by apply map_length; apply nth_mid|].
  destruct (nth_error U (length ids)) as [u|] eqn:NU; [|apply nth_error_None in NU; lia]. apply nth_error_split in NU. destruct NU as (u1 & u2 & -> & LU1).
  exists (u1 ++ val i :: u2). split; [rewrite (aset_at _ _ _ _ _ _ E) by (rewrite map_length; reflexivity); unfold layout; rewrite map_app, <- app_assoc; reflexivity|].
  split; [apply (aset_at _ u1 u u2); [reflexivity|congruence]|].
  rewrite firstn_app, LU1, Nat.sub_diag in HU. cbn [firstn] in HU. rewrite app_nil_r, <- LU1, firstn_all in HU.
  split; [|rewrite !app_length in *; cbn [length] in *; lia].
  rewrite app_length, map_app. cbn [length map]. rewrite firstn_app, <- LU1. replace (length u1 + 1 - length u1)%nat with 1%nat by lia. cbn [firstn].
  rewrite firstn_all2 by lia. rewrite HU. reflexivity.
Qed.
(** Replacing a strong one. *)
Lemma swap_slot (L : list (option nat)) (U : list Q) ids f O j x i : L = layout ids (S f) O -> firstn (length ids) U = map val ids -> length U = n -> (length ids + S f + length O = n)%nat ->
  nth_error ids j = Some x ->
  nth_error L j = Some (Some x) /\ put_end L (length ids + S f) x = Some (layout ids f (x :: O), (length ids + f)%nat) /\
  exists ids1 ids2 U', ids = ids1 ++ x :: ids2 /\ aset (layout ids f (x :: O)) j (Some i) = Some (layout (ids1 ++ i :: ids2) f (x :: O)) /\
    aset U j (val i) = Some U' /\ firstn (length ids) U' = map val (ids1 ++ i :: ids2) /\ length U' = n.
Proof.
  intros -> HU LU HN HJ. apply nth_error_split in HJ. destruct HJ as (i1 & i2 & -> & <-).
  split; [unfold layout; rewrite map_app; cbn [map]; rewrite <- app_assoc; cbn [app]; replace (length i1) with (length (map (@Some nat) i1)) by apply map_length; apply nth_mid|].
  split; [apply put_end_layout|].
  rewrite map_app in HU. cbn [map] in HU. rewrite app_length in HU. cbn [length] in HU.
  assert (NU : nth_error U (length i1) = Some (val x)).
  { rewrite <- (firstn_skipn (length i1 + S (length i2)) U), HU, <- app_assoc. cbn [app]. replace (length i1) with (length (map val i1)) by apply map_length. apply nth_mid. }
  apply nth_error_split in NU. destruct NU as (u1 & u2 & -> & LU1).
  exists i1, i2, (u1 ++ val i :: u2). split; [reflexivity|]. split.
  { unfold layout. rewrite !map_app. cbn [map]. rewrite <- !app_assoc. cbn [app]. rewrite (aset_at _ (map Some i1) (Some x) _ _ _ eq_refl) by (rewrite map_length; reflexivity). reflexivity. }
  split; [apply (aset_at _ u1 (val x) u2); [reflexivity|congruence]|].
  split; [|rewrite !app_length in *; cbn [length] in *; lia].
  rewrite app_length, map_app. cbn [length map]. rewrite firstn_app, LU1 in *. replace (length i1 + S (length i2) - length i1)%nat with (S (length i2)) in * by lia.
  cbn [firstn] in *. rewrite firstn_all2 in * by lia. apply app_inj_tail_iff in HU || idtac.
  assert (Lm : length u1 = length (map val i1)) by (rewrite map_length; exact LU1).
  assert (Eq : u1 = map val i1 /\ firstn (length i2) u2 = map val i2).
  { revert Lm HU. generalize (map val i1) as w. clear. induction u1 as [|a u1 IH]; intros [|b w] Lm HU; try discriminate.
    - cbn [app] in HU. injection HU as H1. auto.
    - cbn [app] in HU. injection HU as -> HU. cbn [length] in Lm. destruct (IH w) as [-> ?]; [lia|exact HU|]. auto. }
  destruct Eq as [-> ->]. reflexivity.
Qed.
Lemma flush_shape s ids f O : shape s ids f O -> (1 <= f)%nat ->
  exists U', flush (ls_max s) (ls_list s) (ls_useful s) (ls_put s) = Some (layout [] f (ids ++ O), U', f) /\ length U' = n.
Proof.
  intros [H1 H2 H3 H4 H5 H6 H7] Hf. rewrite H1, H5, H6.
  replace (Nat.min ns (length ids + f)) with (length ids + (Nat.min ns (length ids + f) - length ids))%nat by lia.
  rewrite flush_none by lia. destruct (flush_layout ids f O (ls_useful s)) as (U' & F & LU); [lia|]. exists U'. split; [exact F|lia].
Qed.

(** One unsatisfied object. *)
Lemma step_inv s ids f O i : inv s ids f O -> (1 <= f)%nat -> (prio i <= COIN_INT_MAX)%Z -> (pos -> 0 < val i) ->
  exists s' ids' f' O', list_step s i (prio i) (val i) = Some s' /\ inv s' ids' f' O' /\ Permutation (ids' ++ O') (i :: ids ++ O) /\ ids' <> [].
Proof.
  intros [SH HU HI HO HT HC] Hf HP HV.
  (* adding to the first free slot, after a possible flush *)
  assert (ADD : forall s1 ids1 f1 O1, shape s1 ids1 (S f1) O1 -> ls_u s1 = S (length ids1 + length O1) -> ls_prio s1 = prio i ->
     (forall x, In x ids1 -> prio x = prio i) -> (forall x, In x O1 -> (prio i <= prio x)%Z) -> (pos -> no_best (prio i) O1) ->
     ls_idx s1 = length ids1 -> above_chk (val i) (ls_check s1) = true -> (length ids1 < ns)%nat ->
     exists s', (match (match nth_error (ls_list s1) (ls_idx s1) with None => None | Some None => Some (ls_list s1, ls_put s1) | Some (Some x) => put_end (ls_list s1) (ls_put s1) x end) with
          | None => None
          | Some (L1, put) =>
              match aset L1 (ls_idx s1) (Some i), Nat.ltb (ls_idx s1) put, aset (ls_useful s1) (ls_idx s1) (val i) with
              | Some L2, true, Some U2 =>
                  let m := Nat.min (ls_max s1) put in
                  match find_worst L2 U2 (seq 0 m) ChkHigh (ls_idx s1) with
                  | Some (c, idx) => Some {| ls_list := L2; ls_useful := U2; ls_put := put; ls_max := m; ls_prio := ls_prio s1; ls_check := c; ls_idx := idx; ls_u := ls_u s1 |}
                  | None => None
                  end
              | _, _, _ => None
              end
          end) = Some s' /\ inv s' (ids1 ++ [i]) f1 O1).
  { intros s1 ids1 f1 O1 [H1 H2 H3 H4 H5 H6 H7] U1 P1 I1 O1' N1 X1 A1 K1. rewrite X1.
    destruct (add_slot _ _ _ _ _ i H1 H2 H3 H4) as (NE & U' & E1 & E2 & E3 & E4). rewrite NE, E1, E2, H5.
    destruct (Nat.ltb_spec (length ids1) (length ids1 + S f1)); [|lia]. cbv zeta.
    assert (Lk : length (ids1 ++ [i]) = S (length ids1)) by (rewrite app_length; cbn [length]; lia).
    destruct (fw_control (layout (ids1 ++ [i]) f1 O1) U' (ids1 ++ [i]) f1 O1 (Nat.min (ls_max s1) (length ids1 + S f1)) (length ids1) eq_refl E3 E4) as (c & j & F & C); try lia.
    rewrite F. eexists. split; [reflexivity|]. split; cbn [ls_list ls_useful ls_put ls_max ls_prio ls_check ls_idx ls_u].
    - split; cbn [ls_list ls_useful ls_put ls_max ls_prio ls_check ls_idx ls_u]; try assumption; try reflexivity; lia.
    - lia.
    - intros x Hx. apply in_app_or in Hx. rewrite P1. destruct Hx as [Hx|[<-|[]]]; [apply I1, Hx|reflexivity].
    - intros x Hx. rewrite P1. apply O1', Hx.
    - intros Hp o x Ho _ E. rewrite P1 in E. destruct (N1 Hp o Ho E).
    - right. destruct C as [(C1 & C2 & C3)|(x & C1 & C2 & C3 & C4)].
      + left. cbn [ls_list ls_useful ls_put ls_max ls_prio ls_check ls_idx ls_u]. rewrite P1. repeat split; try assumption; lia.
      + right. exists x. cbn [ls_list ls_useful ls_put ls_max ls_prio ls_check ls_idx ls_u]. rewrite P1. repeat split; try assumption; try lia. destruct C4 as [C4|C4]; [left|right]; auto. }
  assert (NM : (length ids + f + length O = n)%nat) by apply (sh_n _ _ _ _ SH).
  unfold list_step. destruct (Z.ltb_spec (prio i) (ls_prio s)) as [LP|LP].
  { destruct (flush_shape _ _ _ _ SH Hf) as (U' & F & LU). rewrite F.
    cbn [ls_list ls_useful ls_put ls_max ls_prio ls_check ls_idx ls_u]. rewrite Z.eqb_refl. cbn [above_chk].
    destruct f as [|f]; [lia|].
    destruct (ADD {| ls_list := layout [] (S f) (ids ++ O); ls_useful := U'; ls_put := S f; ls_max := Nat.min (ls_max s) (S f); ls_prio := prio i; ls_check := ChkLow; ls_idx := 0; ls_u := S (ls_u s) |} [] f (ids ++ O)) as (s' & E & IV).
    - split; cbn [ls_list ls_useful ls_put ls_max ls_prio ls_check ls_idx ls_u length]; try reflexivity; try assumption; try lia.
      + rewrite app_length. lia.
      + rewrite (sh_max _ _ _ _ SH). lia.
    - cbn [ls_u length]. rewrite app_length. lia.
    - reflexivity.
    - intros x [].
    - intros x Hx. apply in_app_or in Hx. destruct Hx as [Hx|Hx]; [rewrite (HI x Hx); lia|]. specialize (HO x Hx). lia.
    - intros _ o Ho. apply in_app_or in Ho. destruct Ho as [Ho|Ho]; [rewrite (HI o Ho); lia|]. specialize (HO o Ho). lia.
    - reflexivity.
    - reflexivity.
    - cbn [length]. lia.
    - cbn [ls_list ls_useful ls_put ls_max ls_prio ls_check ls_idx ls_u] in E. exists s', [i], f, (ids ++ O). split; [exact E|]. split; [exact IV|]. split; [reflexivity|discriminate]. }
  cbn [ls_list ls_useful ls_put ls_max ls_prio ls_check ls_idx ls_u].
  destruct f as [|f]; [lia|].
  assert (TE : (ls_prio s < prio i)%Z \/ (prio i = ls_prio s /\ above_chk (val i) (ls_check s) = false) -> control s ids (S f) O ->
    exists s' ids' f' O', match put_end (ls_list s) (ls_put s) i with
        | Some (L, put) => Some {| ls_list := L; ls_useful := ls_useful s; ls_put := put; ls_max := Nat.min (ls_max s) put; ls_prio := ls_prio s; ls_check := ls_check s; ls_idx := ls_idx s; ls_u := S (ls_u s) |}
        | None => None end = Some s' /\ inv s' ids' f' O' /\ Permutation (ids' ++ O') (i :: ids ++ O) /\ ids' <> []).
  { intros T C. destruct SH as [H1 H2 H3 H4 H5 H6 H7]. rewrite H1, H5, put_end_layout. eexists. exists ids, f, (i :: O). split; [reflexivity|].
    split; [|split; [symmetry; apply Permutation_middle|]].
    - split; cbn [ls_list ls_useful ls_put ls_max ls_prio ls_check ls_idx ls_u].
      + split; cbn [ls_list ls_useful ls_put ls_max ls_prio ls_check ls_idx ls_u length]; try assumption; try reflexivity; lia.
      + cbn [length]. lia.
      + exact HI.
      + intros x [<-|Hx]; [exact LP|apply HO, Hx].
      + intros Hp o x [<-|Ho] Hx E; [|apply HT; assumption]. destruct T as [T|[_ T]]; [lia|].
        destruct C as [(C1 & C2 & C3 & C4)|(y & C1 & C2 & C3 & C4 & C5)]; rewrite C3 in T; cbn [above_chk] in T.
        * destruct (Qltb_reflect 0 (val i)); [discriminate|]. specialize (HV Hp). lra.
        * destruct (Qltb_reflect (val y) (val i)); [discriminate|]. specialize (C4 x Hx). lra.
      + right. destruct C as [(C1 & C2 & C3 & C4)|(y & C1 & C2 & C3 & C4 & C5)]; [left|right].
        * cbn [ls_list ls_useful ls_put ls_max ls_prio ls_check ls_idx ls_u]. split; [exact C1|]. split; [exact C2|]. split; [exact C3|].
          intros Hp o [<-|Ho]; [|apply C4; assumption]. destruct T as [T|[E T]]; [lia|]. rewrite C3 in T. cbn [above_chk] in T.
          destruct (Qltb_reflect 0 (val i)); [discriminate|]. specialize (HV Hp). lra.
        * exists y. cbn [ls_list ls_useful ls_put ls_max ls_prio ls_check ls_idx ls_u]. destruct C5 as [C5|[C5 _]]; [|discriminate]. auto 10.
    - destruct C as [(C1 & _)|(y & C1 & _)]; intros ->; cbn [length] in C1; lia. }
  destruct (Z.eqb_spec (prio i) (ls_prio s)) as [EP|NP].
  2:{ apply TE; [left; lia|]. destruct HC as [(-> & -> & _ & _ & HB)|C]; [lia|exact C]. }
  destruct (above_chk (val i) (ls_check s)) eqn:AB.
  2:{ apply TE; [right; auto|]. destruct HC as [(_ & _ & _ & HB & _)|C]; [rewrite HB in AB; discriminate|exact C]. }
  assert (A1 : ls_idx s = length ids -> (length ids < ns)%nat -> (pos -> no_best (prio i) O) ->
    exists s' ids' f' O', (match (match nth_error (ls_list s) (ls_idx s) with None => None | Some None => Some (ls_list s, ls_put s) | Some (Some x) => put_end (ls_list s) (ls_put s) x end) with
          | None => None
          | Some (L1, put) =>
              match aset L1 (ls_idx s) (Some i), Nat.ltb (ls_idx s) put, aset (ls_useful s) (ls_idx s) (val i) with
              | Some L2, true, Some U2 =>
                  let m := Nat.min (ls_max s) put in
                  match find_worst L2 U2 (seq 0 m) ChkHigh (ls_idx s) with
                  | Some (c, idx) => Some {| ls_list := L2; ls_useful := U2; ls_put := put; ls_max := m; ls_prio := ls_prio s; ls_check := c; ls_idx := idx; ls_u := S (ls_u s) |}
                  | None => None
                  end
              | _, _, _ => None
              end
          end) = Some s' /\ inv s' ids' f' O' /\ Permutation (ids' ++ O') (i :: ids ++ O) /\ ids' <> []).
  { intros X K N.
    destruct (ADD {| ls_list := ls_list s; ls_useful := ls_useful s; ls_put := ls_put s; ls_max := ls_max s; ls_prio := ls_prio s; ls_check := ls_check s; ls_idx := ls_idx s; ls_u := S (ls_u s) |} ids f O) as (s' & E & IV);
      cbn [ls_list ls_useful ls_put ls_max ls_prio ls_check ls_idx ls_u]; try assumption; try congruence.
    - destruct SH. split; assumption.
    - intros x Hx. rewrite (HI x Hx). congruence.
    - intros x Hx. rewrite EP. apply HO, Hx.
    - cbn [ls_list ls_useful ls_put ls_max ls_prio ls_check ls_idx ls_u] in E. exists s', (ids ++ [i]), f, O. split; [exact E|]. split; [exact IV|].
      split; [rewrite <- app_assoc; symmetry; apply Permutation_middle|intro Z; destruct ids; discriminate]. }
  destruct HC as [(-> & -> & HX & HB & _)|[(C1 & C2 & C3 & C4)|(y & C1 & C2 & C3 & C4 & C5)]].
  - apply A1; [exact HX|cbn [length]; lia|intros _ o []].
  - apply A1; [exact C2|lia|intros Hp; rewrite EP; apply C4, Hp].
  - destruct C5 as [C5|[C5 _]]; [|discriminate]. destruct SH as [H1 H2 H3 H4 H5 H6 H7].
    destruct (swap_slot _ _ _ _ _ _ _ i H1 H2 H3 H4 C2) as (NE & PE & i1 & i2 & U' & EI & E1 & E2 & E3 & E4). rewrite NE, H5, PE, E1, E2.
    assert (Lj : (ls_idx s < length ids)%nat) by (apply nth_error_Some; congruence).
    destruct (Nat.ltb_spec (ls_idx s) (length ids + f)); [|lia]. cbv zeta.
    assert (Lk : length (i1 ++ i :: i2) = length ids) by (rewrite EI, !app_length; reflexivity).
    assert (CV : val y < val i) by (rewrite C3 in AB; cbn [above_chk] in AB; destruct (Qltb_reflect (val y) (val i)); [assumption|discriminate]).
    destruct (fw_control (layout (i1 ++ i :: i2) f (y :: O)) U' (i1 ++ i :: i2) f (y :: O) (Nat.min (ls_max s) (length ids + f)) (ls_idx s) eq_refl) as (c & j & F & C); try (rewrite ?Lk; cbn [length]; lia); [rewrite Lk; exact E3|].
    rewrite F. eexists. exists (i1 ++ i :: i2), f, (y :: O). split; [reflexivity|]. split; [|split].
    + assert (PM : forall x, In x (i1 ++ i :: i2) -> x = i \/ In x ids).
      { intros x Hx. rewrite EI. apply in_app_or in Hx. destruct Hx as [Hx|[Hx|Hx]]; [right; apply in_or_app; left; exact Hx|left; congruence|right; apply in_or_app; right; right; exact Hx]. }
      assert (Hy : In y ids) by (rewrite EI; apply in_or_app; right; left; reflexivity).
      split; cbn [ls_list ls_useful ls_put ls_max ls_prio ls_check ls_idx ls_u].
      * split; cbn [ls_list ls_useful ls_put ls_max ls_prio ls_check ls_idx ls_u length]; rewrite ?Lk; try assumption; try reflexivity; lia.
      * cbn [length]. lia.
      * intros x Hx. destruct (PM x Hx) as [->|Hx']; [exact EP|apply HI, Hx'].
      * intros x [<-|Hx]; [rewrite (HI y Hy); lia|apply HO, Hx].
      * intros Hp o x Ho Hx E.
        assert (M : val y <= val x) by (destruct (PM x Hx) as [->|Hx']; [lra|apply C4, Hx']).
        destruct Ho as [<-|Ho]; [exact M|]. pose proof (HT Hp o y Ho Hy E). lra.
      * right. destruct C as [(D1 & _)|(x & D1 & D2 & D3 & D4)]; [lia|]. right. exists x. cbn [ls_list ls_useful ls_put ls_max ls_prio ls_check ls_idx ls_u].
        split; [lia|]. split; [exact D1|]. split; [exact D2|]. split; [exact D3|]. left. lia.
    + rewrite EI, <- !app_assoc. cbn [app]. rewrite <- Permutation_middle. constructor. apply Permutation_app_head. symmetry. apply Permutation_middle.
    + intro Z. destruct i1; discriminate.
Qed.
End Loop.

(** The last phase. *)
Lemma compact_layout : forall ids2 ids1 f O U1 v2 rest r k, k = length ids1 -> length U1 = k -> length v2 = length ids2 ->
  (forall j, In j r -> (k + length ids2 <= j < k + length ids2 + f)%nat /\ (j < length U1 + length v2 + length rest)%nat) ->
  compact (layout (ids1 ++ ids2) f O) (U1 ++ v2 ++ rest) (seq k (length ids2) ++ r) k =
  Some (layout (ids1 ++ ids2) f O, U1 ++ map Qopp v2 ++ rest, (k + length ids2)%nat).
Proof.
  induction ids2 as [|x ids2 IH]; intros ids1 f O U1 [|v v2] rest r k HK HL HV HR; try discriminate; cbn [length seq app map] in *.
  - rewrite app_nil_r, Nat.add_0_r in *. clear HV. revert HR. induction r as [|j r IHr]; intros HR; cbn [compact]; [reflexivity|].
    destruct (HR j (or_introl eq_refl)) as [H1 H2].
    assert (N : nth_error (layout ids1 f O) j = Some None).
    { unfold layout. rewrite nth_error_app2 by (rewrite map_length; lia). rewrite map_length, nth_error_app1 by (rewrite repeat_length; lia). apply nth_error_repeat. lia. }
    rewrite N. destruct (nth_error (U1 ++ rest) j) eqn:E; [|apply nth_error_None in E; rewrite app_length in E; lia]. apply IHr. intros; apply HR; right; assumption.
  - cbn [compact]. assert (EL : layout (ids1 ++ x :: ids2) f O = map Some ids1 ++ Some x :: (map Some ids2 ++ repeat None f ++ map Some O)) by (unfold layout; rewrite map_app, <- app_assoc; reflexivity).
    assert (N : nth_error (layout (ids1 ++ x :: ids2) f O) k = Some (Some x)) by (rewrite EL; replace k with (length (map (@Some nat) ids1)) by (rewrite map_length; lia); apply nth_mid).
    rewrite N. replace (nth_error (U1 ++ v :: v2 ++ rest) k) with (Some v) by (rewrite <- HL; symmetry; apply nth_mid).
    rewrite (aset_at _ _ _ _ _ _ EL) by (rewrite map_length; exact HK). rewrite (aset_at _ U1 v (v2 ++ rest) _ _ eq_refl) by congruence. rewrite <- EL.
    replace (U1 ++ (- v) :: v2 ++ rest) with ((U1 ++ [- v]) ++ v2 ++ rest) by (rewrite <- app_assoc; reflexivity).
    replace (ids1 ++ x :: ids2) with ((ids1 ++ [x]) ++ ids2) by (rewrite <- app_assoc; reflexivity).
    rewrite (IH (ids1 ++ [x]) f O (U1 ++ [- v]) v2 rest r (S k)).
    + f_equal. f_equal; [|lia]. f_equal. rewrite <- app_assoc. reflexivity.
    + rewrite app_length. cbn [length]. lia.
    + rewrite app_length. cbn [length]. lia.
    + lia.
    + intros j Hj. destruct (HR j Hj). rewrite app_length. cbn [length]. lia.
Qed.
Lemma move_layout : forall O A G i, i = length A ->
  exists G', move_others (A ++ G ++ map Some O) i (seq (length A + length G) (length O)) = Some (A ++ map Some O ++ G', (i + length O)%nat).
Proof.
  induction O as [|x O IH]; intros A G i Hi; cbn [length seq move_others map].
  - exists G. rewrite app_nil_r, Nat.add_0_r. reflexivity.
  - assert (N : nth_error (A ++ G ++ Some x :: map Some O) (length A + length G) = Some (Some x)).
    { rewrite app_assoc. replace (length A + length G)%nat with (length (A ++ G)) by apply app_length. apply nth_mid. }
    rewrite N. destruct G as [|g G].
    + cbn [app]. rewrite (aset_at _ A (Some x) (map Some O) _ _ eq_refl Hi). destruct (IH (A ++ [Some x]) [] (S i)) as (G' & E); [rewrite app_length; cbn [length]; lia|].
      exists G'. cbn [length app] in E. replace (A ++ Some x :: map Some O) with ((A ++ [Some x]) ++ map Some O) by (rewrite <- app_assoc; reflexivity).
      replace (S (length A + length (@nil (option nat)))) with (length (A ++ [Some x]) + 0)%nat by (rewrite app_length; cbn [length]; lia). rewrite E. f_equal. f_equal; [rewrite <- app_assoc; reflexivity|lia].
    + cbn [app]. rewrite (aset_at _ A g (G ++ Some x :: map Some O) _ _ eq_refl Hi).
      destruct (IH (A ++ [Some x]) (G ++ [Some x]) (S i)) as (G' & E); [rewrite app_length; cbn [length]; lia|]. exists G'.
      replace (A ++ Some x :: G ++ Some x :: map Some O) with ((A ++ [Some x]) ++ (G ++ [Some x]) ++ map Some O) by (rewrite <- !app_assoc; reflexivity).
      replace (S (length A + length (g :: G))) with (length (A ++ [Some x]) + length (G ++ [Some x]))%nat by (rewrite !app_length; cbn [length]; lia).
      rewrite E. f_equal. f_equal; [rewrite <- app_assoc; reflexivity|lia].
Qed.
