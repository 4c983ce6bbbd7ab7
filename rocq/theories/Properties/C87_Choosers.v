(** C87: the objects that choose variables in the partial tree, copied, assigned and deleted. *)
From Coq Require Import Permutation Sorted.
From Verif Require Import Spec.ChooserSpec Proofs.CandidateListP Properties.C47_CandidateList.
#[local] Open Scope nat_scope.

Lemma kget_app {A} (l : list (option A)) x j : kget (l ++ [x]) j = if Nat.eqb j (length l) then x else kget l j.
Proof.
  unfold kget. destruct (Nat.eqb_spec j (length l)) as [->|N]; [rewrite nth_error_app2, Nat.sub_diag by lia; reflexivity|].
  destruct (Nat.lt_ge_cases j (length l)); [rewrite nth_error_app1 by lia; reflexivity|].
  rewrite nth_error_app2 by lia. destruct (j - length l) as [|k] eqn:D; [lia|]. cbn. rewrite (proj2 (nth_error_None l j)) by lia. destruct k; reflexivity.
Qed.
Lemma kget_len {A} (l : list (option A)) i : length l <= i -> kget l i = None.
Proof. intros H. unfold kget. rewrite (proj2 (nth_error_None l i)) by lia. reflexivity. Qed.
Lemma kget_lt {A} (l : list (option A)) i : kget l i <> None -> i < length l.
Proof. intros H. destruct (Nat.lt_ge_cases i (length l)) as [L|L]; [exact L|]. elim H. apply kget_len, L. Qed.
Lemma kget_put {A} (l : list (option A)) i x j : kget l i <> None -> kget (kput l i x) j = if Nat.eqb j i then x else kget l j.
Proof.
  revert i j. induction l as [|c l IH]; intros i j H; [destruct i; exfalso; apply H; reflexivity|]. destruct i as [|i]; [destruct j; reflexivity|]. destruct j as [|j]; [reflexivity|]. apply (IH i j). exact H.
Qed.
Lemma kput_len {A} (l : list (option A)) i x : length (kput l i x) = length l.
Proof. revert i. induction l as [|c l IH]; intros [|i]; cbn; [reflexivity|reflexivity|reflexivity|]. now rewrite IH. Qed.
Lemma kget_map {A B} (f : A -> B) (l : list (option A)) i : kget (map (option_map f) l) i = option_map f (kget l i).
Proof. unfold kget. rewrite nth_error_map. destruct (nth_error l i); reflexivity. Qed.
Lemma kput_map {A B} (f : A -> B) (l : list (option A)) i x : map (option_map f) (kput l i x) = kput (map (option_map f) l) i (option_map f x).
Proof. revert i. induction l as [|c l IH]; intros [|i]; cbn; [reflexivity|reflexivity|reflexivity|]. now rewrite IH. Qed.
Lemma copied_same s : k_copied s = s.
Proof. destruct s. reflexivity. Qed.

(** ** What a careful program keeps. *)
Definition ready (p : kplain) : Prop :=
  k_done p <= k_strong p /\
  ((0 <= k_unsat p)%Z -> exists ids, all_some (firstn (Z.to_nat (k_unsat p)) (k_list p)) = Some ids /\ forall i, In i ids -> i < length (k_costs p)).
Lemma all_some_map {A} (l : list A) : all_some (map Some l) = Some l.
Proof. induction l as [|x l IH]; [reflexivity|]. cbn. rewrite IH. reflexivity. Qed.
Lemma firstn_front {A} (l r : list A) n : n = length l -> firstn n (l ++ r) = l.
Proof. intros ->. rewrite firstn_app, Nat.sub_diag, firstn_all. cbn. apply app_nil_r. Qed.
Lemma with_costs_length rs cs : length rs <= length cs -> length (with_costs rs cs) = length rs.
Proof. intros H. unfold with_costs. rewrite map_length, combine_length. lia. Qed.
Lemma with_costs_in rs cs o : In o (with_costs rs cs) -> exists r, In r rs /\ lo_inf o = r_inf r /\ lo_prio o = r_prio r.
Proof. unfold with_costs. intros H. apply in_map_iff in H. destruct H as ([r c] & <- & H). exists r. split; [apply (in_combine_l _ _ _ _ H)|]. split; reflexivity. Qed.
Lemma setup_ready srt init rs p : sorts srt -> ready p -> careful_call p (CSetup init rs) -> exists p', k_setup srt init rs p = Some p' /\ ready p'.
Proof.
  intros SRT [R1 R2] (C1 & C2 & C3). unfold k_setup. destruct (Nat.ltb_spec (k_room p) (length rs)) as [L|_]; [lia|].
  set (costs := if Nat.ltb (length (k_costs p)) (length rs) then repeat pcost0 (length rs) else k_costs p).
  assert (LC : length rs <= length costs). { unfold costs. destruct (Nat.ltb_spec (length (k_costs p)) (length rs)); [rewrite repeat_length; lia|lia]. }
  set (objs := with_costs rs (firstn (length rs) costs)).
  assert (LO : length objs = length rs) by (unfold objs; rewrite with_costs_length; [reflexivity|rewrite firstn_length; lia]).
  assert (PR : forall o, In o objs -> (lo_prio o <= COIN_INT_MAX)%Z). { intros o H. destruct (with_costs_in _ _ _ H) as (r & I & _ & ->). apply C3, I. }
  assert (D : (exists o, In o objs /\ lo_inf o = None) \/ forall o, In o objs -> lo_inf o <> None).
  { clear. induction objs as [|x l IH]; [right; intros o []|]. destruct (lo_inf x) eqn:E.
    - destruct IH as [(o & I & N)|H]; [left; exists o; split; [right; exact I|exact N]|]. right. intros o [<-|I]; [congruence|apply H, I].
    - left. exists x. split; [left; reflexivity|exact E]. }
  destruct D as [D|D].
  - destruct (candidate_list_infeasible srt (k_method p) (k_trust p) (k_strong p) objs C1 PR D) as [L E]. rewrite E. eexists. split; [reflexivity|].
    split; [cbn [k_done k_strong]; destruct init; lia|]. cbn [k_unsat]. lia.
  - destruct (candidate_list srt (k_method p) (k_trust p) (k_strong p) objs SRT C1 (fun o H => conj (D o H) (PR o H))) as (listed & others & tail & E & PM & _).
    rewrite E. eexists. split; [reflexivity|]. split; [cbn [k_done k_strong]; destruct init; lia|]. cbn [k_unsat k_list k_costs]. intros _. rewrite Nat2Z.id.
    exists (listed ++ others). rewrite firstn_front by (rewrite map_length; symmetry; apply Permutation_length, PM). split; [apply all_some_map|].
    intros i I. apply (Permutation_in i PM) in I. unfold unsatisfied in I. apply filter_In in I. destruct I as [I _]. apply in_seq in I. lia.
Qed.
Lemma sb_done tmax : forall todo k, length (snd (fst (doStrongBranching tmax k todo))) <= length todo.
Proof.
  induction todo as [|r l IH]; intro k; cbn [doStrongBranching]; [cbn; lia|].
  destruct (sr_down_inf r && sr_up_inf r); [cbn; lia|]. destruct (sr_down_inf r || sr_up_inf r); [cbn; lia|]. destruct (tmax k); [cbn; lia|].
  specialize (IH (S k)). destruct (doStrongBranching tmax (S k) l) as [[code done] b]. cbn in *. lia.
Qed.
Lemma to_branch_length l : length (to_branch l) <= length l.
Proof. unfold to_branch. induction l as [|[o|r] l IH]; cbn [flat_map app length]; lia. Qed.
Lemma In_firstn {A} (x : A) n l : In x (firstn n l) -> In x l.
Proof. intros H. rewrite <- (firstn_skipn n l). apply in_or_app. left. exact H. Qed.
Lemma decide_ready left nd p : ready p -> (0 <= k_unsat p)%Z -> left + k_done p <= k_strong p ->
  exists p' done todo a, k_decide left nd p = Some (p', done, todo, a) /\ ready p' /\ todo <= left /\ done <= todo.
Proof.
  intros [R1 R2] U L. destruct (R2 U) as (ids & A & B). unfold k_decide. rewrite A.
  assert (F : forallb (fun i => Nat.ltb i (length (k_costs p))) (firstn left ids) = true).
  { apply forallb_forall. intros i I. apply Nat.ltb_lt. apply B. apply (In_firstn i left ids I). }
  rewrite F. cbv zeta. set (trust := if Nat.eqb (k_trust p) 0 then 5 else k_trust p). set (entries := map (candidate trust (k_costs p) nd) ids).
  set (todo := to_branch (firstn left entries)).
  assert (LT : length todo <= left) by (unfold todo; pose proof (to_branch_length (firstn left entries)); pose proof (firstn_le_length left entries); lia).
  set (done := match todo with [] => [] | _ :: _ => snd (fst (doStrongBranching (n_tmax nd) 0 todo)) end).
  assert (LD : length done <= length todo).
  { unfold done. destruct todo as [|r l]; [cbn; lia|]. apply sb_done. }
  destruct (chooseVariable (k_method p) (n_tmax nd) (n_cutoff nd) (n_obj nd) entries left (k_onlist p) (k_second p)) as [[[code best] way] second].
  eexists _, _, _, _. split; [reflexivity|]. split; [|split; [exact LT|exact LD]]. split; [cbn [k_done k_strong]; lia|]. cbn [k_unsat k_list k_costs]. intros _. exists ids. split; assumption.
Qed.
Lemma decide7_ready nd p p' a : k_decide7 nd p = Some (p', a) -> ready p -> ready p'.
Proof.
  unfold k_decide7. destruct (n_seven nd) as [[[[[[[optimal infeasible] feasible] depth] cols] lower] upper] sol].
  destruct (chooseVariable7 _ _ _ _ _ _ _ _); [|discriminate]. intros H [R1 R2]. injection H as <- _. split; [exact R1|exact R2].
Qed.
(** A careful call is defined, and keeps the object ready. *)
Lemma call_ready srt p c : sorts srt -> ready p -> careful_call p c -> exists p' a, v_call srt p c = Some (p', a) /\ ready p'.
Proof.
  intros SRT R C. destruct c as [n|m|k|k|m|init rs|nd]; cbn [v_call].
  - eexists _, _. split; [reflexivity|]. split; [exact (proj1 R)|]. cbn. intros _. exists []. split; [reflexivity|intros i []].
  - eexists _, _. split; [reflexivity|]. exact R.
  - eexists _, _. split; [reflexivity|]. split; [exact (proj2 C)|exact (proj2 R)].
  - eexists _, _. split; [reflexivity|]. exact R.
  - eexists _, _. split; [reflexivity|]. exact R.
  - destruct (setup_ready srt init rs p SRT R C) as (p' & E & R'). rewrite E. exists p', []. split; [reflexivity|exact R'].
  - destruct C as [U S]. destruct (Z.eqb_spec (k_method p) 7) as [M|M].
    + specialize (S M). destruct (k_decide7 nd p) as [[p' a]|] eqn:E; [|elim S; reflexivity]. exists p', [a]. split; [reflexivity|]. exact (decide7_ready nd p p' a E R).
    + destruct (Z.eqb_spec (k_unsat p) 0) as [Z0|Z0]; [exists p; eexists; split; [reflexivity|exact R]|]. cbv zeta.
      assert (D := proj1 R). destruct (Z.ltb_spec (Z.min (Z.of_nat (k_strong p) - Z.of_nat (k_done p)) (k_unsat p)) 0) as [L|L]; [lia|].
      destruct (decide_ready (Z.to_nat (Z.min (Z.of_nat (k_strong p) - Z.of_nat (k_done p)) (k_unsat p))) nd p R U ltac:(lia)) as (p' & done & todo & a & E & R' & _).
      rewrite E. exists p', [a]. split; [reflexivity|exact R'].
Qed.
Lemma ready_start n : ready (kplain0 n).
Proof. split; [cbn; lia|]. cbn. intros _. exists []. split; [reflexivity|intros i []]. Qed.

(** ** Memory. *)
Definition sound (w : kworld) : Prop :=
  (forall i a, holds w i a -> allocated w a) /\ (forall i j a, holds w i a -> holds w j a -> i = j) /\ (forall a, allocated w a -> exists i, holds w i a) /\
  (forall i o a n, kget (w_objs w) i = Some o -> k_results o = Some a -> kget (w_blocks w) a = Some n -> k_num o <= n).
Lemma add_plain w p : sound w -> sound (k_add w {| k_plain := p; k_results := None; k_num := 0 |}).
Proof.
  intros (A & B & C & D).
  assert (X : forall i a, holds (k_add w {| k_plain := p; k_results := None; k_num := 0 |}) i a <-> holds w i a).
  { intros i a. unfold holds, k_add. cbn [w_objs]. split; intros (o & E & H).
    - rewrite kget_app in E. destruct (Nat.eqb i (length (w_objs w))); [injection E as <-; discriminate|]. exists o. split; assumption.
    - exists o. split; [|exact H]. rewrite kget_app. destruct (Nat.eqb_spec i (length (w_objs w))) as [->|]; [rewrite kget_len in E by lia; discriminate|exact E]. }
  split; [intros i a H; apply (A i a), X, H|]. split; [intros i j a H K; apply (B i j a); apply X; assumption|].
  split; [intros a H; destruct (C a H) as [i K]; exists i; apply X, K|].
  intros i o a n E R K. unfold k_add in E. cbn [w_objs] in E. rewrite kget_app in E. destruct (Nat.eqb i (length (w_objs w))); [injection E as <-; discriminate|]. exact (D i o a n E R K).
Qed.
(** An object's plain members change. *)
Lemma edit_plain w i o p : sound w -> kget (w_objs w) i = Some o -> sound {| w_blocks := w_blocks w; w_objs := kput (w_objs w) i (Some (with_plain o p)) |}.
Proof.
  intros (A & B & C & D) E. assert (N : kget (w_objs w) i <> None) by congruence.
  assert (X : forall j a, holds {| w_blocks := w_blocks w; w_objs := kput (w_objs w) i (Some (with_plain o p)) |} j a <-> holds w j a).
  { intros j a. unfold holds. cbn [w_objs]. rewrite kget_put by exact N. destruct (Nat.eqb_spec j i) as [->|]; [|reflexivity]. split; intros (o' & E' & H).
    - injection E' as <-. exists o. split; [exact E|exact H].
    - rewrite E in E'. injection E' as <-. exists (with_plain o p). split; [reflexivity|exact H]. }
  split; [intros j a H; apply (A j a), X, H|]. split; [intros j k a H K; apply (B j k a); apply X; assumption|].
  split; [intros a H; destruct (C a H) as [j K]; exists j; apply X, K|].
  intros j o' a n E' R K. cbn [w_objs] in E'. rewrite kget_put in E' by exact N. destruct (Nat.eqb_spec j i) as [->|]; [injection E' as <-; exact (D i o a n E R K)|exact (D j o' a n E' R K)].
Qed.
(** Freeing an object's results. *)
Lemma free_ok w i o : sound w -> kget (w_objs w) i = Some o ->
  exists b, free_results (w_blocks w) (k_results o) = Some b /\ length b = length (w_blocks w) /\
    (forall a, kget b a <> None <-> allocated w a /\ k_results o <> Some a) /\ (forall a, kget b a <> None -> kget b a = kget (w_blocks w) a).
Proof.
  intros (A & _) E. unfold free_results, allocated. destruct (k_results o) as [a|] eqn:R.
  - assert (L : kget (w_blocks w) a <> None) by (apply (A i a); exists o; split; assumption). destruct (kget (w_blocks w) a) as [n|] eqn:G; [|elim L; reflexivity].
    eexists. split; [reflexivity|]. rewrite kput_len. split; [reflexivity|]. assert (L' : kget (w_blocks w) a <> None) by congruence. split.
    + intros c. rewrite kget_put by exact L'. destruct (Nat.eqb_spec c a) as [->|N]; [split; [intros H; elim H; reflexivity|intros [_ H]; elim H; reflexivity]|]. split; [intros H; split; [exact H|congruence]|intros [H _]; exact H].
    + intros c. rewrite kget_put by exact L'. destruct (Nat.eqb_spec c a) as [->|N]; [intros H; elim H; reflexivity|reflexivity].
  - eexists. split; [reflexivity|]. split; [reflexivity|]. split; [|reflexivity]. intros a. split; [intros H; split; [exact H|discriminate]|intros [H _]; exact H].
Qed.
(** Object [i] gives up its results: it is deleted, or left without any. *)
Lemma drop_results w i o x b : sound w -> kget (w_objs w) i = Some o -> free_results (w_blocks w) (k_results o) = Some b ->
  (forall o', x = Some o' -> k_results o' = None) -> sound {| w_blocks := b; w_objs := kput (w_objs w) i x |}.
Proof.
  intros S E F NX. destruct (free_ok w i o S E) as (b' & F' & LB & AL & KB). assert (b' = b) by congruence. subst b'. destruct S as (A & B & C & D).
  assert (N : kget (w_objs w) i <> None) by congruence. set (w' := {| w_blocks := b; w_objs := kput (w_objs w) i x |}).
  assert (X : forall j a, holds w' j a <-> holds w j a /\ j <> i).
  { intros j a. unfold holds, w'. cbn [w_objs]. rewrite kget_put by exact N. destruct (Nat.eqb_spec j i) as [->|NE].
    - split; [|intros [_ H]; elim H; reflexivity]. intros (o' & -> & H). rewrite (NX o' eq_refl) in H. discriminate.
    - split; [intros H; split; [exact H|exact NE]|intros [H _]; exact H]. }
  assert (OWN : forall j a, holds w j a -> j <> i -> k_results o <> Some a).
  { intros j a H NE R. apply NE. apply (B j i a H). exists o. split; assumption. }
  split; [intros j a H; apply X in H; destruct H as [H NE]; apply AL; split; [exact (A j a H)|exact (OWN j a H NE)]|].
  split; [intros j k a H K; apply X in H; apply X in K; exact (B j k a (proj1 H) (proj1 K))|].
  split.
  - intros a H. apply AL in H. destruct H as [H R]. destruct (C a H) as [j K]. exists j. apply X. split; [exact K|]. intros ->. destruct K as (o' & E' & R'). apply R. congruence.
  - intros j o' a n E' R K. unfold w' in *. cbn [w_objs w_blocks] in *. rewrite kget_put in E' by exact N. destruct (Nat.eqb_spec j i) as [->|NE].
    + rewrite (NX o' E') in R. discriminate.
    + apply (D j o' a n E' R). rewrite <- KB by congruence. exact K.
Qed.
(** Object [i] gets a new block. *)
Lemma new_results w i p n m : sound w -> kget (w_objs w) i = Some {| k_plain := p; k_results := None; k_num := 0 |} -> m <= n -> forall p',
  sound {| w_blocks := w_blocks w ++ [Some n]; w_objs := kput (w_objs w) i (Some {| k_plain := p'; k_results := Some (length (w_blocks w)); k_num := m |}) |}.
Proof.
  intros (A & B & C & D) E MN p'. assert (N : kget (w_objs w) i <> None) by congruence. set (w' := {| w_blocks := _; w_objs := _ |}).
  assert (X : forall j a, holds w' j a <-> holds w j a \/ (j = i /\ a = length (w_blocks w))).
  { intros j a. unfold holds, w'. cbn [w_objs]. rewrite kget_put by exact N. destruct (Nat.eqb_spec j i) as [->|NE].
    - split.
      + intros (o' & E' & H). injection E' as <-. cbn in H. injection H as <-. right. split; reflexivity.
      + intros [(o' & E' & H)|[_ ->]]; [rewrite E in E'; injection E' as <-; discriminate|]. eexists. split; [reflexivity|reflexivity].
    - split; [intros H; left; exact H|intros [H|[H _]]; [exact H|congruence]]. }
  assert (LT : forall j a, holds w j a -> a < length (w_blocks w)) by (intros j a H; apply kget_lt; exact (A j a H)).
  assert (G : forall a, kget (w_blocks w ++ [Some n]) a = if Nat.eqb a (length (w_blocks w)) then Some n else kget (w_blocks w) a) by (intros a; apply kget_app).
  split; [|split; [|split]].
  - intros j a H. apply X in H. unfold allocated, w'. cbn [w_blocks]. rewrite G. destruct (Nat.eqb_spec a (length (w_blocks w))); [discriminate|]. destruct H as [H|[_ H]]; [exact (A j a H)|congruence].
  - intros j k a H K. apply X in H. apply X in K. destruct H as [H|[-> ->]]; destruct K as [K|[-> K2]]; try reflexivity; [exact (B j k a H K)| |].
    + subst a. specialize (LT j _ H). lia.
    + specialize (LT k _ K). lia.
  - intros a H. unfold allocated, w' in H. cbn [w_blocks] in H. rewrite G in H. destruct (Nat.eqb_spec a (length (w_blocks w))) as [EQ|NE].
    + exists i. apply X. right. split; [reflexivity|exact EQ].
    + destruct (C a H) as [j K]. exists j. apply X. left. exact K.
  - intros j o' a k E' R K. unfold w' in *. cbn [w_objs w_blocks] in *. rewrite kget_put in E' by exact N. rewrite G in K. destruct (Nat.eqb_spec j i) as [->|NE].
    + injection E' as <-. cbn in R. injection R as <-. rewrite Nat.eqb_refl in K. injection K as <-. exact MN.
    + destruct (Nat.eqb_spec a (length (w_blocks w))) as [->|]; [|exact (D j o' a k E' R K)].
      assert (H : holds w j (length (w_blocks w))) by (exists o'; split; assumption). specialize (LT _ _ H). lia.
Qed.
Lemma kput_put {A} (l : list (option A)) i x y : kput (kput l i x) i y = kput l i y.
Proof. revert i. induction l as [|c l IH]; intros [|i]; cbn; [reflexivity|reflexivity|reflexivity|]. now rewrite IH. Qed.
Lemma free_length b a b' : free_results b a = Some b' -> length b' = length b.
Proof. unfold free_results. destruct a as [a|]; [|intros H; injection H as <-; reflexivity]. destruct (kget b a); [|discriminate]. intros H. injection H as <-. apply kput_len. Qed.

(** One call in memory is the call on the value, and memory stays sound. *)
Lemma call_same srt w i o c : sound w -> kget (w_objs w) i = Some o ->
  match k_call srt (w_blocks w) o c, v_call srt (k_plain o) c with
  | Some (b, o', a), Some (p', a') => k_plain o' = p' /\ a = a' /\ sound {| w_blocks := b; w_objs := kput (w_objs w) i (Some o') |}
  | None, None => True
  | _, _ => False
  end.
Proof.
  intros S E. destruct c as [n|m|k|k|m|init rs|nd]; cbn [k_call v_call]; try (split; [reflexivity|split; [reflexivity|apply edit_plain; assumption]]).
  - destruct (k_setup srt init rs (k_plain o)) as [p|]; [|exact Logic.I]. split; [reflexivity|split; [reflexivity|apply edit_plain; assumption]].
  - unfold k_choose. cbv zeta. destruct (Z.eqb (k_method (k_plain o)) 7).
    + destruct (k_decide7 nd (k_plain o)) as [[p' a]|]; [|exact Logic.I]. split; [reflexivity|split; [reflexivity|]]. exact (edit_plain w i o p' S E).
    + destruct (Z.eqb (k_unsat (k_plain o)) 0).
      * split; [reflexivity|split; [reflexivity|]]. pose proof (edit_plain w i o (k_plain o) S E) as H. destruct o as [p r n]. exact H.
      * destruct (Z.ltb _ 0) eqn:LT; [exact Logic.I|]. destruct (free_ok w i o S E) as (b & F & LB & _). rewrite F.
        set (left := Z.to_nat _). destruct (k_decide left nd (k_plain o)) as [[[[p' done] todo] a]|] eqn:K; [|exact Logic.I].
        assert (T : todo <= left /\ done <= todo).
        { revert K. unfold k_decide. destruct (all_some _) as [ids|]; [|discriminate]. destruct (forallb _ _); [|discriminate]. cbv zeta.
          set (entries := map _ ids). destruct (chooseVariable _ _ _ _ _ _ _ _) as [[[? ?] ?] ?]. intros H. injection H as HH1 HH2 HH3 HH4. subst done todo. clear HH1 HH4.
          pose proof (to_branch_length (firstn left entries)) as L1. pose proof (firstn_le_length left entries) as L2. split; [lia|].
          destruct (to_branch (firstn left entries)) as [|r l] eqn:TB; [cbn; lia|]. apply sb_done. }
        rewrite (proj2 (Nat.leb_le todo left) (proj1 T)). split; [reflexivity|split; [reflexivity|]].
        pose proof (drop_results w i o (Some {| k_plain := p'; k_results := None; k_num := 0 |}) b S E F) as S1.
        assert (N : kget (w_objs w) i <> None) by congruence.
        specialize (S1 ltac:(intros o' H; injection H as <-; reflexivity)).
        assert (G : kget (kput (w_objs w) i (Some {| k_plain := p'; k_results := None; k_num := 0 |})) i = Some {| k_plain := p'; k_results := None; k_num := 0 |}) by (rewrite kget_put by exact N; rewrite Nat.eqb_refl; reflexivity).
        pose proof (new_results _ i p' left done S1 G ltac:(lia) p') as S2. cbn [w_objs w_blocks] in S2. rewrite kput_put in S2. exact S2.
Qed.
Lemma kget_values w i : kget (values_of w) i = option_map k_plain (kget (w_objs w) i).
Proof. apply kget_map. Qed.
Lemma step_same srt w c : sound w ->
  match k_step srt w c, v_step srt (values_of w) c with
  | Some (w', a), Some (vs', a') => values_of w' = vs' /\ a = a' /\ sound w'
  | None, None => True
  | _, _ => False
  end.
Proof.
  intros S. destruct c as [|n|i|i j|i|i c]; cbn [k_step v_step]; rewrite ?kget_values.
  - split; [|split; [reflexivity|apply add_plain, S]]. unfold values_of, k_add. cbn [w_objs]. rewrite map_app. reflexivity.
  - split; [|split; [reflexivity|apply add_plain, S]]. unfold values_of, k_add. cbn [w_objs]. rewrite map_app. reflexivity.
  - destruct (kget (w_objs w) i) as [o|]; [|exact Logic.I]. cbn [option_map]. split; [|split; [reflexivity|apply add_plain, S]]. unfold values_of, k_add. cbn [w_objs]. rewrite map_app. cbn. rewrite copied_same. reflexivity.
  - destruct (kget (w_objs w) i) as [o|] eqn:E; [|exact Logic.I]. cbn [option_map]. destruct (kget (w_objs w) j) as [s|] eqn:E2; [|exact Logic.I]. cbn [option_map].
    destruct (Nat.eqb_spec i j) as [->|NE].
    + split; [|split; [reflexivity|exact S]]. assert (s = o) as -> by congruence. unfold values_of. clear - E. revert j E. induction (w_objs w) as [|c l IH]; intros j E; [destruct j; discriminate|].
      destruct j as [|j]; cbn in E |- *; [unfold kget in E; cbn in E; rewrite E; reflexivity|]. f_equal. apply IH. exact E.
    + destruct (free_ok w i o S E) as (b & F & _). rewrite F. split; [|split; [reflexivity|apply (drop_results w i o _ b S E F); intros o' H; injection H as <-; reflexivity]].
      unfold values_of. cbn [w_objs]. rewrite kput_map. cbn. rewrite copied_same. reflexivity.
  - destruct (kget (w_objs w) i) as [o|] eqn:E; [|exact Logic.I]. cbn [option_map]. destruct (free_ok w i o S E) as (b & F & _). rewrite F.
    split; [|split; [reflexivity|apply (drop_results w i o _ b S E F); intros o' H; discriminate]]. unfold values_of. cbn [w_objs]. rewrite kput_map. reflexivity.
  - destruct (kget (w_objs w) i) as [o|] eqn:E; [|exact Logic.I]. cbn [option_map]. pose proof (call_same srt w i o c S E) as H.
    destruct (k_call srt (w_blocks w) o c) as [[[b o'] a]|]; destruct (v_call srt (k_plain o) c) as [[p' a']|]; try exact H.
    destruct H as (<- & <- & H). split; [|split; [reflexivity|exact H]]. unfold values_of. cbn [w_objs]. rewrite kput_map. reflexivity.
Qed.
Lemma run_same srt cs : forall w, sound w ->
  match k_run srt w cs, v_run srt (values_of w) cs with
  | Some (w', a), Some (vs', a') => values_of w' = vs' /\ a = a' /\ sound w'
  | None, None => True
  | _, _ => False
  end.
Proof.
  induction cs as [|c r IH]; intros w S; cbn [k_run v_run]; [split; [reflexivity|split; [reflexivity|exact S]]|].
  pose proof (step_same srt w c S) as H. destruct (k_step srt w c) as [[w1 a1]|]; destruct (v_step srt (values_of w) c) as [[vs1 a1']|]; [|elim H|elim H|exact Logic.I]. destruct H as (<- & <- & S1).
  specialize (IH w1 S1). destruct (k_run srt w1 r) as [[w2 a2]|]; destruct (v_run srt (values_of w1) r) as [[vs2 a2']|]; [|elim IH|elim IH|exact Logic.I]. destruct IH as (<- & <- & S2). split; [reflexivity|split; [reflexivity|exact S2]].
Qed.
Lemma sound_start : sound kworld0.
Proof.
  assert (H : forall i a, ~ holds kworld0 i a) by (intros i a (o & E & _); destruct i; discriminate).
  split; [intros i a K; elim (H i a K)|]. split; [intros i j a K; elim (H i a K)|]. split; [intros a K; elim K; destruct a; reflexivity|]. intros i o a n E. destruct i; discriminate.
Qed.
Lemma careful_defined srt cs : sorts srt -> forall vs, (forall i p, kget vs i = Some p -> ready p) -> careful_prog srt vs cs ->
  exists vs' a, v_run srt vs cs = Some (vs', a) /\ forall i p, kget vs' i = Some p -> ready p.
Proof.
  intros SRT. induction cs as [|c r IH]; intros vs R C; cbn [v_run]; [exists vs, []; split; [reflexivity|exact R]|]. destruct C as [C1 C2].
  assert (ST : exists vs1 a, v_step srt vs c = Some (vs1, a) /\ forall i p, kget vs1 i = Some p -> ready p).
  { destruct c as [|n|i|i j|i|i c]; cbn [v_step careful_cmd] in *.
    - eexists _, _. split; [reflexivity|]. intros k p H. rewrite kget_app in H. destruct (Nat.eqb k (length vs)); [injection H as <-; apply ready_start|exact (R k p H)].
    - eexists _, _. split; [reflexivity|]. intros k p H. rewrite kget_app in H. destruct (Nat.eqb k (length vs)); [injection H as <-; apply ready_start|exact (R k p H)].
    - destruct (kget vs i) as [q|] eqn:E; [|elim C1; reflexivity]. eexists _, _. split; [reflexivity|]. intros k p H. rewrite kget_app in H. destruct (Nat.eqb k (length vs)); [injection H as <-; exact (R i q E)|exact (R k p H)].
    - destruct C1 as [C1 C3]. destruct (kget vs i) as [q|] eqn:E; [|elim C1; reflexivity]. destruct (kget vs j) as [s|] eqn:E2; [|elim C3; reflexivity].
      eexists _, _. split; [reflexivity|]. intros k p H. rewrite kget_put in H by congruence. destruct (Nat.eqb k i); [injection H as <-; exact (R j s E2)|exact (R k p H)].
    - destruct (kget vs i) as [q|] eqn:E; [|elim C1; reflexivity]. eexists _, _. split; [reflexivity|]. intros k p H. rewrite kget_put in H by congruence. destruct (Nat.eqb k i); [discriminate|exact (R k p H)].
    - destruct C1 as (q & E & C1). rewrite E. destruct (call_ready srt q c SRT (R i q E) C1) as (p' & a & V & R'). rewrite V. eexists _, _. split; [reflexivity|].
      intros k p H. rewrite kget_put in H by congruence. destruct (Nat.eqb k i); [injection H as <-; exact R'|exact (R k p H)]. }
  destruct ST as (vs1 & a1 & V & R1). rewrite V. destruct (IH vs1 R1 (C2 vs1 a1 V)) as (vs2 & a2 & V2 & R2). rewrite V2. exists vs2, (a1 ++ a2). split; [reflexivity|exact R2].
Qed.

(** ** The theorems. *)
(** Every program, careful or not, that copies, assigns, deletes and uses such objects answers as if each variable held its own value and there
    were no memory; and it is undefined only where a single call on a value is. *)
Theorem as_values : forall srt cs, option_map snd (k_run srt kworld0 cs) = option_map snd (v_run srt [] cs) /\
  option_map (fun r => values_of (fst r)) (k_run srt kworld0 cs) = option_map fst (v_run srt [] cs).
Proof.
  intros srt cs. pose proof (run_same srt cs kworld0 sound_start) as H. change (values_of kworld0) with (@nil (option kplain)) in H.
  destruct (k_run srt kworld0 cs) as [[w a]|]; destruct (v_run srt [] cs) as [[vs a']|]; try (destruct H; fail); [|split; reflexivity].
  destruct H as (<- & <- & _). split; reflexivity.
Qed.
Print Assumptions as_values.

(** A careful program is never undefined and never throws; afterwards each allocated block of results is held by exactly one live object, blocks held are
    allocated, the results in use fit, and no object has strong branched on more candidates at the current node than it was told. *)
Theorem never_undefined : forall srt cs, sorts srt -> careful_prog srt [] cs -> exists w a, k_run srt kworld0 cs = Some (w, a) /\
  (forall b, allocated w b -> exists i, holds w i b) /\ (forall i b, holds w i b -> allocated w b) /\ (forall i j b, holds w i b -> holds w j b -> i = j) /\
  (forall i o b n, kget (w_objs w) i = Some o -> k_results o = Some b -> kget (w_blocks w) b = Some n -> k_num o <= n) /\
  (forall i p, kget (values_of w) i = Some p -> k_done p <= k_strong p).
Proof.
  intros srt cs SRT C. destruct (careful_defined srt cs SRT [] ltac:(intros i p H; destruct i; discriminate) C) as (vs & a & V & R).
  pose proof (run_same srt cs kworld0 sound_start) as H. change (values_of kworld0) with (@nil (option kplain)) in H. rewrite V in H.
  destruct (k_run srt kworld0 cs) as [[w a']|] eqn:E; [|destruct H]. destruct H as (VW & -> & (A & B & D & F)).
  exists w, a. split; [reflexivity|]. split; [exact D|]. split; [exact A|]. split; [exact B|]. split; [exact F|]. intros i p K. rewrite VW in K. exact (proj1 (R i p K)).
Qed.
Print Assumptions never_undefined.

(** When all objects have been deleted nothing is left allocated (after any program that is defined). *)
Theorem no_leak : forall srt cs w a, k_run srt kworld0 cs = Some (w, a) -> (forall i, kget (w_objs w) i = None) -> forall b, ~ allocated w b.
Proof.
  intros srt cs w a E N b H. pose proof (run_same srt cs kworld0 sound_start) as K. rewrite E in K. destruct (v_run _ _ _) as [[vs a']|]; [|destruct K].
  destruct K as (_ & _ & (_ & _ & D & _)). destruct (D b H) as (i & o & G & _). rewrite N in G. discriminate.
Qed.
Print Assumptions no_leak.

(** A copy, made at any moment of any program (also between setupList and chooseVariable), then answers the same calls as the original would. *)
Definition calls_on (i : nat) (l : list kcall) : list kcmd := map (KCall i) l.
Lemma solo srt l : forall vs vs' i j, kget vs i = kget vs' j -> kget vs i <> None ->
  option_map snd (v_run srt vs (calls_on i l)) = option_map snd (v_run srt vs' (calls_on j l)).
Proof.
  induction l as [|c l IH]; intros vs vs' i j E N; [reflexivity|]. unfold calls_on in *. cbn [map v_run v_step]. rewrite <- E. destruct (kget vs i) as [p|] eqn:G; [|elim N; reflexivity].
  destruct (v_call srt p c) as [[p' a]|]; [|reflexivity]. assert (N2 : kget vs' j <> None) by congruence. assert (N1 : kget vs i <> None) by congruence.
  specialize (IH (kput vs i (Some p')) (kput vs' j (Some p')) i j). rewrite !kget_put, !Nat.eqb_refl in IH by assumption. specialize (IH eq_refl ltac:(discriminate)).
  destruct (v_run srt (kput vs i (Some p')) (map (KCall i) l)) as [[x1 y1]|]; destruct (v_run srt (kput vs' j (Some p')) (map (KCall j) l)) as [[x2 y2]|]; cbn in IH |- *; congruence.
Qed.
Theorem copy_answers_alike : forall srt cs w a i l, k_run srt kworld0 cs = Some (w, a) -> kget (w_objs w) i <> None ->
  option_map snd (k_run srt w (KCopy i :: calls_on (length (w_objs w)) l)) = option_map snd (k_run srt w (calls_on i l)).
Proof.
  intros srt cs w a i l E N. pose proof (run_same srt cs kworld0 sound_start) as K. rewrite E in K. destruct (v_run srt (values_of kworld0) cs) as [[vs a']|]; [|destruct K]. destruct K as (_ & _ & S).
  assert (X : forall l', option_map snd (k_run srt w l') = option_map snd (v_run srt (values_of w) l')).
  { intros l'. pose proof (run_same srt l' w S) as H. destruct (k_run srt w l') as [[w1 a1]|]; destruct (v_run srt (values_of w) l') as [[v1 b1]|]; try (destruct H; fail); [|reflexivity]. destruct H as (_ & <- & _). reflexivity. }
  rewrite !X. cbn [v_run v_step]. assert (G : kget (values_of w) i = option_map k_plain (kget (w_objs w) i)) by (unfold values_of; apply kget_map).
  destruct (kget (w_objs w) i) as [o|]; [|elim N; reflexivity]. cbn [option_map] in G. rewrite G.
  assert (L : length (values_of w) = length (w_objs w)) by (unfold values_of; apply map_length).
  assert (Q : kget (values_of w ++ [Some (k_plain o)]) (length (w_objs w)) = Some (k_plain o)) by (rewrite kget_app, <- L, Nat.eqb_refl; reflexivity).
  rewrite <- (solo srt l (values_of w ++ [Some (k_plain o)]) (values_of w) (length (w_objs w)) i) by congruence.
  destruct (v_run srt (values_of w ++ [Some (k_plain o)]) (calls_on (length (w_objs w)) l)) as [[x y]|]; reflexivity.
Qed.
Print Assumptions copy_answers_alike.

(** ** Pseudo-costs. *)
Lemma run_costs srt cs : forall vs vs' a, (forall i p c, kget vs i = Some p -> In c (k_costs p) -> c = pcost0) -> v_run srt vs cs = Some (vs', a) ->
  forall i p c, kget vs' i = Some p -> In c (k_costs p) -> c = pcost0.
Proof.
  induction cs as [|x r IH]; intros vs vs' a H E; cbn [v_run] in E; [injection E as <- _; exact H|].
  destruct (v_step srt vs x) as [[v1 a1]|] eqn:V; [|discriminate]. destruct (v_run srt v1 r) as [[v2 a2]|] eqn:V2; [|discriminate]. injection E as <- _.
  apply (IH v1 v2 a2); [|exact V2]. clear V2 IH. intros k p c. destruct x as [|n|i|i j|i|i x]; cbn [v_step] in V.
  - injection V as <- _. rewrite kget_app. destruct (Nat.eqb k (length vs)); [|apply H]. intros G. injection G as <-. intros [].
  - injection V as <- _. rewrite kget_app. destruct (Nat.eqb k (length vs)); [|apply H]. intros G. injection G as <-. apply repeat_spec.
  - destruct (kget vs i) as [q|] eqn:E; [|discriminate]. injection V as <- _. rewrite kget_app. destruct (Nat.eqb k (length vs)); [|apply H]. intros G. injection G as <-. exact (H i q c E).
  - destruct (kget vs i) as [q|] eqn:E; [|discriminate]. destruct (kget vs j) as [s|] eqn:E2; [|discriminate]. injection V as <- _. rewrite kget_put by congruence. destruct (Nat.eqb k i); [|apply H]. intros G. injection G as <-. exact (H j s c E2).
  - destruct (kget vs i) as [q|] eqn:E; [|discriminate]. injection V as <- _. rewrite kget_put by congruence. destruct (Nat.eqb k i); [discriminate|apply H].
  - destruct (kget vs i) as [q|] eqn:E; [|discriminate]. destruct (v_call srt q x) as [[p' b]|] eqn:VC; [|discriminate]. injection V as <- _. rewrite kget_put by congruence. destruct (Nat.eqb k i); [|apply H]. intros G. injection G as <-.
    specialize (H i q c E). destruct x as [n|m|n|n|m|init rs|nd]; cbn [v_call] in VC; try (injection VC as <- _; exact H).
    + unfold k_setup in VC. destruct (Nat.ltb (k_room q) (length rs)); [discriminate|]. destruct (setupList _ _ _ _ _) as [[[u ol] L]|]; [|discriminate]. injection VC as <- _. cbn [k_costs].
      destruct (Nat.ltb (length (k_costs q)) (length rs)); [apply repeat_spec|exact H].
    + destruct (Z.eqb (k_method q) 7).
      * unfold k_decide7 in VC. destruct (n_seven nd) as [[[[[[[? ?] ?] ?] ?] ?] ?] ?]. destruct (chooseVariable7 _ _ _ _ _ _ _ _); [|discriminate]. injection VC as <- _. exact H.
      * destruct (Z.eqb (k_unsat q) 0); [injection VC as <- _; exact H|]. cbv zeta in VC. destruct (Z.ltb _ 0); [discriminate|]. destruct (k_decide _ nd q) as [[[[p1 d] t] b1]|] eqn:K; [|discriminate]. injection VC as <- _.
        unfold k_decide in K. destruct (all_some _); [|discriminate]. destruct (forallb _ _); [|discriminate]. cbv zeta in K. destruct (chooseVariable _ _ _ _ _ _ _ _) as [[[? ?] ?] ?]. injection K as <- _ _ _. exact H.
Qed.
Lemma zero_costs srt cs w a i o : k_run srt kworld0 cs = Some (w, a) -> kget (w_objs w) i = Some o -> forall k, nth k (k_costs (k_plain o)) pcost0 = pcost0.
Proof.
  intros E G k. pose proof (run_same srt cs kworld0 sound_start) as K. rewrite E in K. destruct (v_run srt (values_of kworld0) cs) as [[vs a']|] eqn:V; [|destruct K]. destruct K as (<- & _ & _).
  destruct (Nat.lt_ge_cases k (length (k_costs (k_plain o)))) as [L|L]; [|apply nth_overflow, L].
  apply (run_costs srt cs (values_of kworld0) _ _ ltac:(intros j p c H; destruct j; discriminate) V i (k_plain o)); [|apply nth_In, L]. unfold values_of. rewrite kget_map, G. reflexivity.
Qed.
Lemma trusted_alike left nd k p : (forall j, nth j (k_costs p) pcost0 = pcost0) ->
  match k_decide left nd (set_trust k p), k_decide left nd p with
  | Some (_, d, t, a), Some (_, d', t', a') => d = d' /\ t = t' /\ a = a'
  | None, None => True
  | _, _ => False
  end.
Proof.
  intros ZC.
  assert (C : forall t ids, t <> 0 -> map (candidate t (k_costs p) nd) ids = map (candidate 1 (k_costs p) nd) ids).
  { intros t ids T. apply map_ext. intros j. unfold candidate. rewrite ZC. cbn [p_upnum p_dnnum pcost0]. destruct t as [|t]; [congruence|]. reflexivity. }
  assert (T0 : forall t, (if Nat.eqb t 0 then 5 else t) <> 0) by (intros t; destruct (Nat.eqb_spec t 0); [discriminate|assumption]).
  assert (C1 := fun ids => C _ ids (T0 k)). assert (C2 := fun ids => C _ ids (T0 (k_trust p))). clear C T0.
  unfold k_decide. cbn [set_trust k_trust k_unsat k_list k_costs k_method k_onlist k_second]. destruct (all_some _) as [ids|]; [|exact Logic.I]. destruct (forallb _ _); [|exact Logic.I]. cbv zeta.
  rewrite (C1 ids), (C2 ids). destruct (chooseVariable _ _ _ _ _ _ _ _) as [[[? ?] ?] ?]. split; [reflexivity|split; reflexivity].
Qed.
(** Whatever was done before, the number of times a variable is branched on before its pseudo-cost is trusted has no effect on the choice: all
    candidates are strong branched on, since the pseudo-costs are never updated. *)
Theorem trust_has_no_effect : forall srt cs w a i k nd, k_run srt kworld0 cs = Some (w, a) ->
  option_map snd (k_run srt w [KCall i (CTrust k); KCall i (CChoose nd)]) = option_map snd (k_run srt w [KCall i (CChoose nd)]).
Proof.
  intros srt cs w a i k nd E. cbn [k_run k_step k_call]. destruct (kget (w_objs w) i) as [o|] eqn:G; [|reflexivity]. cbn [w_objs]. rewrite kget_put, Nat.eqb_refl by congruence.
  pose proof (zero_costs srt cs w a i o E G) as ZC. cbn [w_blocks app].
  assert (X : option_map snd (k_choose nd (w_blocks w) (with_plain o (set_trust k (k_plain o)))) = option_map snd (k_choose nd (w_blocks w) o)).
  { unfold k_choose. cbn [k_plain with_plain k_results k_num].
    change (k_method (set_trust k (k_plain o))) with (k_method (k_plain o)). change (k_unsat (set_trust k (k_plain o))) with (k_unsat (k_plain o)).
    change (k_strong (set_trust k (k_plain o))) with (k_strong (k_plain o)). change (k_done (set_trust k (k_plain o))) with (k_done (k_plain o)). change (k_best (set_trust k (k_plain o))) with (k_best (k_plain o)).
    destruct (Z.eqb (k_method (k_plain o)) 7).
    - unfold k_decide7. destruct (n_seven nd) as [[[[[[[? ?] ?] ?] ?] ?] ?] ?]. destruct (chooseVariable7 _ _ _ _ _ _ _ _); reflexivity.
    - destruct (Z.eqb (k_unsat (k_plain o)) 0); [reflexivity|]. cbv zeta. destruct (Z.ltb _ 0); [reflexivity|]. destruct (free_results (w_blocks w) (k_results o)) as [b|]; [|reflexivity].
      set (left := Z.to_nat _). pose proof (trusted_alike left nd k (k_plain o) ZC) as T.
      destruct (k_decide left nd (set_trust k (k_plain o))) as [[[[p1 d1] t1] a1]|]; destruct (k_decide left nd (k_plain o)) as [[[[p2 d2] t2] a2]|]; [|elim T|elim T|reflexivity].
      destruct T as (-> & -> & ->). destruct (Nat.leb t2 left); reflexivity. }
  destruct (k_choose nd (w_blocks w) (with_plain o (set_trust k (k_plain o)))) as [[[b1 o1] a1]|]; destruct (k_choose nd (w_blocks w) o) as [[[b2 o2] a2]|]; cbn in X |- *; congruence.
Qed.
Print Assumptions trust_has_no_effect.

(** ** How the partial tree sets it up. *)
(** PartialBBDisjunction.cpp:385-421: a local object, told the settings, copied into the branching decision, which is copied into the search; then both
    are deleted.  The search is left with one object with exactly these settings, and nothing is allocated. *)
Theorem search_uses_settings : forall srt k t m, (1 <= k)%nat -> exists w,
  k_run srt kworld0 [KNew; KCall 0 (CStrong k); KCall 0 (CTrust t); KCall 0 (CMethod m); KCopy 0; KDelete 0; KCopy 1; KDelete 1] = Some (w, []) /\
  (forall i, i <> 2 -> kget (w_objs w) i = None) /\ (forall b, ~ allocated w b) /\
  exists p, kget (values_of w) 2 = Some p /\ k_method p = m /\ k_strong p = k /\ k_trust p = t /\ k_done p = 0 /\ k_unsat p = 0%Z.
Proof.
  intros srt k t m H. eexists. split; [reflexivity|]. cbn [w_objs w_blocks k_add kput]. split; [intros [|[|[|i]]] N; try reflexivity; [congruence|destruct i; reflexivity]|].
  split; [intros b A; apply A; destruct b; reflexivity|]. eexists. split; [reflexivity|]. repeat (split; [reflexivity|]). reflexivity.
Qed.
Print Assumptions search_uses_settings.

(** The candidates strong branched on at a node are counted: from 0 when the node is set up anew, and over all calls until then; [k_num] of them by
    the last call (method 7 and a node without unsatisfied objects branch on none).  Nothing else changes the count. *)
Theorem candidates_counted : forall srt w i c w' a o o', k_step srt w (KCall i c) = Some (w', a) -> kget (w_objs w) i = Some o -> kget (w_objs w') i = Some o' ->
  k_done (k_plain o') = match c with
                        | CSetup true _ => 0
                        | CChoose _ => if (k_method (k_plain o) =? 7)%Z || (k_unsat (k_plain o) =? 0)%Z then k_done (k_plain o) else k_done (k_plain o) + k_num o'
                        | _ => k_done (k_plain o)
                        end.
Proof.
  intros srt w i c w' a o o' H G G'. cbn [k_step] in H. rewrite G in H. destruct (k_call srt (w_blocks w) o c) as [[[b oo] aa]|] eqn:K; [|discriminate].
  injection H as <- _. cbn [w_objs] in G'. rewrite kget_put, Nat.eqb_refl in G' by congruence. injection G' as ->.
  destruct c as [n|m|k|k|m|init rs|nd]; cbn [k_call] in K; try (injection K as _ <- _; reflexivity).
  - unfold k_setup in K. cbv zeta in K. destruct (Nat.ltb _ _) in K; [discriminate|]. destruct (setupList _ _ _ _ _) as [[[u l] L]|]; [|discriminate].
    injection K as _ <- _. cbn [with_plain k_plain k_done]. destruct init; reflexivity.
  - unfold k_choose in K. cbv zeta in K. destruct (Z.eqb (k_method (k_plain o)) 7).
    + unfold k_decide7 in K. destruct (n_seven nd) as [[[[[[[? ?] ?] ?] ?] ?] ?] ?]. destruct (chooseVariable7 _ _ _ _ _ _ _ _) in K; [|discriminate]. injection K as _ <- _. reflexivity.
    + destruct (Z.eqb (k_unsat (k_plain o)) 0); [injection K as _ <- _; reflexivity|]. cbn [orb].
      destruct (Z.ltb _ 0) in K; [discriminate|]. destruct (free_results _ _) in K; [|discriminate].
      destruct (k_decide _ nd (k_plain o)) as [[[[p' done] todo] x]|] eqn:D; [|discriminate]. destruct (Nat.leb _ _) in K; [|discriminate]. injection K as _ <- _.
      cbn [k_plain k_num]. unfold k_decide in D. cbv zeta in D. destruct (all_some _) as [ids|]; [|discriminate]. destruct (forallb _ _) in D; [|discriminate].
      destruct (chooseVariable _ _ _ _ _ _ _ _) as [[[? ?] ?] ?]. injection D as D1 D2 _ _. subst p' done. reflexivity.
Qed.
Print Assumptions candidates_counted.

(** An object is strong branched on exactly when one of its two pseudo-costs has been updated fewer times than the number before trusted. *)
Theorem branched_until_trusted : forall trust cs nd i, (exists r, candidate trust cs nd i = ToBranch r) <->
  (p_upnum (nth i cs pcost0) < trust \/ p_dnnum (nth i cs pcost0) < trust).
Proof.
  intros trust cs nd i. unfold candidate. cbv zeta. destruct (Nat.ltb_spec (p_upnum (nth i cs pcost0)) trust) as [A|A]; [split; [intros _; left; exact A|intros _; eexists; reflexivity]|].
  destruct (Nat.ltb_spec (p_dnnum (nth i cs pcost0)) trust) as [B|B]; [split; [intros _; right; exact B|intros _; eexists; reflexivity]|].
  destruct (n_est nd i) as [[[? ?] ?] ?]. cbn [orb]. split; [intros [r E]; discriminate|intros [C|C]; lia].
Qed.
Print Assumptions branched_until_trusted.

(** The mode for shadow prices is never used by the object: setting it changes no later answer. *)
Definition but_shadow (p p' : kplain) : Prop := set_shadow 0 p = set_shadow 0 p'.
Lemma shadow_decide left nd p p' : but_shadow p p' ->
  match k_decide left nd p, k_decide left nd p' with
  | Some (q, d, t, a), Some (q', d', t', a') => but_shadow q q' /\ d = d' /\ t = t' /\ a = a' | None, None => True | _, _ => False end.
Proof.
  destruct p as [x1 x2 x3 x4 x5 x6 x7 x8 x9 x10 x11 x12], p' as [y1 y2 y3 y4 y5 y6 y7 y8 y9 y10 y11 y12]. unfold but_shadow, set_shadow. cbn. intros E. inversion E; subst. unfold k_decide. cbn [k_trust k_unsat k_list k_costs k_method k_second k_onlist k_strong k_shadow k_done k_room].
  destruct (all_some _) as [ids|]; [|exact Logic.I]. destruct (forallb _ _); [|exact Logic.I]. cbv zeta. destruct (chooseVariable _ _ _ _ _ _ _ _) as [[[? ?] ?] ?]. repeat split.
Qed.
Lemma shadow_call srt p p' c : but_shadow p p' ->
  match v_call srt p c, v_call srt p' c with
  | Some (q, a), Some (q', a') => but_shadow q q' /\ a = a' | None, None => True | _, _ => False end.
Proof.
  intros E. assert (F : k_method p = k_method p' /\ k_unsat p = k_unsat p' /\ k_strong p = k_strong p' /\ k_done p = k_done p' /\ k_best p = k_best p').
  { destruct p as [x1 x2 x3 x4 x5 x6 x7 x8 x9 x10 x11 x12], p' as [y1 y2 y3 y4 y5 y6 y7 y8 y9 y10 y11 y12]. unfold but_shadow, set_shadow in E. cbn in *. inversion E; subst. repeat split. }
  destruct F as (F1 & F2 & F3 & F4 & F5). destruct c as [n|m|k|k|m|init rs|nd]; cbn [v_call].
  1-5: split; [destruct p as [x1 x2 x3 x4 x5 x6 x7 x8 x9 x10 x11 x12], p' as [y1 y2 y3 y4 y5 y6 y7 y8 y9 y10 y11 y12]; unfold but_shadow, set_shadow in *; cbn in *; inversion E; subst; reflexivity|reflexivity].
  - destruct p as [x1 x2 x3 x4 x5 x6 x7 x8 x9 x10 x11 x12], p' as [y1 y2 y3 y4 y5 y6 y7 y8 y9 y10 y11 y12]. unfold but_shadow, set_shadow in *. cbn in E. inversion E; subst. unfold k_setup. cbn [k_room k_costs k_method k_trust k_strong k_second k_shadow k_done k_best].
    destruct (Nat.ltb _ _); [exact Logic.I|]. cbv zeta. destruct (setupList _ _ _ _ _) as [[[? ?] ?]|]; [|exact Logic.I]. split; reflexivity.
  - rewrite <- F1, <- F2, <- F3, <- F4, <- F5. destruct (Z.eqb (k_method p) 7).
    + unfold k_decide7. destruct (n_seven nd) as [[[[[[[? ?] ?] ?] ?] ?] ?] ?]. destruct (chooseVariable7 _ _ _ _ _ _ _ _); [|exact Logic.I].
      split; [|reflexivity]. destruct p as [x1 x2 x3 x4 x5 x6 x7 x8 x9 x10 x11 x12], p' as [y1 y2 y3 y4 y5 y6 y7 y8 y9 y10 y11 y12]; unfold but_shadow, set_shadow in *; cbn in *; inversion E; subst; reflexivity.
    + destruct (Z.eqb (k_unsat p) 0); [split; [exact E|reflexivity]|]. cbv zeta. destruct (Z.ltb _ 0); [exact Logic.I|].
      pose proof (shadow_decide (Z.to_nat (Z.min (Z.of_nat (k_strong p) - Z.of_nat (k_done p)) (k_unsat p))) nd p p' E) as D.
      destruct (k_decide _ nd p) as [[[[? ?] ?] ?]|]; destruct (k_decide _ nd p') as [[[[? ?] ?] ?]|]; try exact D. destruct D as (D1 & _ & _ & ->). split; [exact D1|reflexivity].
Qed.
Lemma shadow_calls srt l : forall vs vs' i p p', kget vs i = Some p -> kget vs' i = Some p' -> but_shadow p p' ->
  option_map snd (v_run srt vs (calls_on i l)) = option_map snd (v_run srt vs' (calls_on i l)).
Proof.
  induction l as [|c l IH]; intros vs vs' i p p' G G' E; [reflexivity|]. unfold calls_on in *. cbn [map v_run v_step]. rewrite G, G'.
  pose proof (shadow_call srt p p' c E) as D. destruct (v_call srt p c) as [[q a]|]; destruct (v_call srt p' c) as [[q' a']|]; try (destruct D; fail); [|reflexivity].
  destruct D as [D ->]. specialize (IH (kput vs i (Some q)) (kput vs' i (Some q')) i q q'). rewrite !kget_put, !Nat.eqb_refl in IH by congruence.
  specialize (IH eq_refl eq_refl D). destruct (v_run srt (kput vs i (Some q)) _) as [[? ?]|]; destruct (v_run srt (kput vs' i (Some q')) _) as [[? ?]|]; cbn in *; congruence.
Qed.
Theorem shadow_mode_unused : forall srt cs w a i m l, k_run srt kworld0 cs = Some (w, a) ->
  kget (w_objs w) i <> None ->
  option_map snd (k_run srt w (KCall i (CShadow m) :: calls_on i l)) = option_map snd (k_run srt w (calls_on i l)).
Proof.
  intros srt cs w a i m l E N. pose proof (run_same srt cs kworld0 sound_start) as K. rewrite E in K. destruct (v_run srt (values_of kworld0) cs) as [[vs a']|]; [|destruct K]. destruct K as (_ & _ & S).
  assert (X : forall l', option_map snd (k_run srt w l') = option_map snd (v_run srt (values_of w) l')).
  { intros l'. pose proof (run_same srt l' w S) as H. destruct (k_run srt w l') as [[w1 a1]|]; destruct (v_run srt (values_of w) l') as [[v1 b1]|]; try (destruct H; fail); [|reflexivity]. destruct H as (_ & <- & _). reflexivity. }
  rewrite !X. assert (G : kget (values_of w) i = option_map k_plain (kget (w_objs w) i)) by (unfold values_of; apply kget_map).
  destruct (kget (w_objs w) i) as [o|]; [|elim N; reflexivity]. cbn [option_map] in G. cbn [v_run v_step v_call]. rewrite G.
  pose proof (shadow_calls srt l (kput (values_of w) i (Some (set_shadow m (k_plain o)))) (values_of w) i (set_shadow m (k_plain o)) (k_plain o)) as H.
  rewrite kget_put, Nat.eqb_refl in H by congruence. specialize (H eq_refl G ltac:(destruct (k_plain o); reflexivity)).
  rewrite <- H. destruct (v_run srt (kput _ _ _) _) as [[? ?]|]; reflexivity.
Qed.
Print Assumptions shadow_mode_unused.

(** ** Examples. *)
Definition unsorted (l : list (Q * option nat)) : list (Q * option nat) := l.
Definition two_reports : list report := [{| r_inf := Some (1#2); r_prio := 10; r_col := 0; r_up := 1; r_dn := 1 |}; {| r_inf := Some (1#2); r_prio := 10; r_col := 1; r_up := 1; r_dn := 1 |}].
Definition found (i : nat) (dn up : Q) : sbres := {| sr_obj := {| eo_index := i; eo_col := i; eo_down := dn; eo_up := up; eo_pref := None |}; sr_down_inf := false; sr_up_inf := false |}.
Definition a_node : node := {| n_branch := fun i => match i with O => found 0 1 2 | _ => found 1 3 4 end; n_est := fun i => (i, 100%Q, 100%Q, None); n_tmax := fun _ => false;
  n_cutoff := None; n_obj := 0; n_seven := (true, false, false, 0, [], (fun _ => 0%Q), (fun _ => 0%Q), (fun _ => 0%Q)) |}.
(** The search's object, and a copy of it made between setupList and chooseVariable, choose the second variable; each has its own results; then all are deleted. *)
Definition a_program : list kcmd :=
  [KNew; KCall 0 (CStrong 5); KCall 0 (CTrust 3); KCopy 0; KDelete 0; KCall 1 (CSolver 2); KCall 1 (CSetup true two_reports); KCopy 1; KCall 1 (CChoose a_node); KCall 2 (CChoose a_node)].
Example program_runs : match k_run unsorted kworld0 a_program with
  | Some (w, a) => a = [(0%Z, Some 1, 0%Z); (0%Z, Some 1, 0%Z)] /\ w_blocks w = [Some 2; Some 2] /\ map (option_map k_results) (w_objs w) = [None; Some (Some 0); Some (Some 1)]
  | None => False
  end.
Proof. vm_compute. split; [reflexivity|split; reflexivity]. Qed.
Example program_deleted : match k_run unsorted kworld0 (a_program ++ [KAssign 1 2; KDelete 2; KDelete 1]) with
  | Some (w, _) => w_blocks w = [None; None] /\ w_objs w = [None; None; None]
  | None => False
  end.
Proof. vm_compute. split; reflexivity. Qed.
(** A sorting function that meets the hypothesis, for lists of at most two distinct places: insertion sort. *)
Fixpoint insert_key (x : Q * option nat) (l : list (Q * option nat)) : list (Q * option nat) :=
  match l with [] => [x] | y :: r => if Qle_bool (fst x) (fst y) then x :: y :: r else y :: insert_key x r end.
Definition by_key (l : list (Q * option nat)) : list (Q * option nat) := fold_right insert_key [] l.
Lemma insert_perm x l : Permutation (x :: l) (insert_key x l).
Proof. induction l as [|y r IH]; [reflexivity|]. cbn. destruct (Qle_bool (fst x) (fst y)); [reflexivity|]. rewrite perm_swap. apply perm_skip, IH. Qed.
Lemma insert_sorted x l : StronglySorted (fun a b : Q * option nat => (fst a <= fst b)%Q) l -> StronglySorted (fun a b : Q * option nat => (fst a <= fst b)%Q) (insert_key x l).
Proof.
  induction l as [|y r IH]; intros H; [repeat constructor|]. cbn. inversion H as [|? ? S F]; subst. destruct (Qle_bool (fst x) (fst y)) eqn:E.
  - apply Qle_bool_iff in E. constructor; [exact H|]. constructor; [exact E|]. rewrite Forall_forall in F |- *. intros z Z. apply (Qle_trans _ _ _ E). apply F, Z.
  - constructor; [apply IH, S|]. apply Forall_forall. intros z Z. apply (Permutation_in z (Permutation_sym (insert_perm x r))) in Z. rewrite Forall_forall in F. destruct Z as [<-|Z]; [|apply F, Z].
    destruct (Qlt_le_dec (fst y) (fst x)) as [L|L]; [apply Qlt_le_weak, L|]. apply Qle_bool_iff in L. congruence.
Qed.
Lemma by_key_sorts : sorts by_key.
Proof.
  intros l. split.
  - induction l as [|x l IH]; [reflexivity|]. cbn. rewrite <- insert_perm. apply perm_skip, IH.
  - induction l as [|x l IH]; [constructor|]. cbn. apply insert_sorted, IH.
Qed.
Example program_careful : careful_prog by_key [] a_program.
Proof.
  unfold a_program.
  repeat (cbn [careful_prog]; split; [first [exact Logic.I|discriminate|eexists; split; [reflexivity|]; cbn [careful_call]; first [exact Logic.I|split; [cbn; lia|first [cbn; lia|split; [cbn; lia|intros r [<-|[<-|[]]]; vm_compute; discriminate]]]|split; [vm_compute; discriminate|discriminate]]]|];
    intros vs' a0 HH; vm_compute in HH; injection HH as <- <-).
  exact Logic.I.
Qed.

(** ** What is not so. *)
(** After setupList has found the node infeasible, chooseVariable throws (it asks for -1 results). *)
Theorem after_infeasible_refuted : exists cs w a, k_run by_key kworld0 cs = Some (w, a) /\ kget (w_objs w) 0 <> None /\ k_run by_key w [KCall 0 (CChoose a_node)] = None.
Proof.
  exists [KNewFor 1; KCall 0 (CStrong 5); KCall 0 (CSetup true [{| r_inf := None; r_prio := 10; r_col := 0; r_up := 1; r_dn := 1 |}])].
  eexists _, _. split; [vm_compute; reflexivity|]. split; [discriminate|]. vm_compute. reflexivity.
Qed.
Print Assumptions after_infeasible_refuted.
(** The number of candidates can not be lowered between two calls at the same node: chooseVariable throws. *)
Theorem lower_strong_refuted : exists cs w a, k_run by_key kworld0 cs = Some (w, a) /\ kget (w_objs w) 0 <> None /\
  k_run by_key w [KCall 0 (CChoose a_node)] <> None /\ k_run by_key w [KCall 0 (CStrong 1); KCall 0 (CChoose a_node)] = None.
Proof.
  exists [KNewFor 2; KCall 0 (CStrong 5); KCall 0 (CSetup true two_reports); KCall 0 (CChoose a_node)].
  eexists _, _. split; [vm_compute; reflexivity|]. split; [discriminate|]. split; [vm_compute; discriminate|]. vm_compute. reflexivity.
Qed.
Print Assumptions lower_strong_refuted.
(** Documented (PartialBBDisjunction.cpp:340, VPCParameters.hpp: "number of explored nodes before switching to pseudocosts"): with trust after one, the second node
    would use the pseudo-costs of both variables and branch on none; it strong branches on both again. *)
Theorem pseudocosts_refuted : exists cs w a p, k_run by_key kworld0 cs = Some (w, a) /\ kget (values_of w) 0 = Some p /\ k_trust p = 1 /\ k_done p = 2 /\
  cs = [KNewFor 2; KCall 0 (CStrong 5); KCall 0 (CTrust 1); KCall 0 (CSetup true two_reports); KCall 0 (CChoose a_node); KCall 0 (CSetup true two_reports); KCall 0 (CChoose a_node)].
Proof.
  eexists _, _, _, _. split; [|split; [|split; [|split; [|reflexivity]]]]; vm_compute; reflexivity.
Qed.
Print Assumptions pseudocosts_refuted.
