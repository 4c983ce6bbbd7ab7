(** The picture of the search tree. *)
From Verif Require Import Prelude Model.Tolerance Model.LP Model.Disjunction Model.EventHandler Model.TextUtil Model.TreeDrawing Spec.TreeSpec Spec.DrawingSpec Proofs.EventHandlerP Proofs.TreeDrawingP.
From Coq Require Import Permutation.
#[local] Open Scope nat_scope.

(** Edges drawn, with their colour. *)
Notation drawn := (edge * nat)%type.
Definition key (x : drawn) : nat * bool := (e_from (fst x), e_up (fst x)).
Definition at_key (v : nat) (b : bool) (x : drawn) : bool := Nat.eqb (e_from (fst x)) v && Bool.eqb (e_up (fst x)) b.
Definition slotv (P : list drawn) (v : nat) (b : bool) : slot :=
  match find (at_key v b) P with Some x => Some (e_to (fst x), snd x) | None => None end.
Definition row_at (P : list drawn) (v : nat) : list slot := [slotv P v false; None; slotv P v true].
Definition render (nn : nat) (P : list drawn) : list (list slot) := map (row_at P) (seq 0 nn).

Lemma set_nth_ok {A} (a : A) : forall l k, k < length l -> exists l', set_nth k a l = Some l' /\ length l' = length l /\
  (forall j, nth_error l' j = if Nat.eqb j k then Some a else nth_error l j).
Proof.
  induction l as [|b l IH]; intros k H; [cbn in H; lia|]. destruct k as [|k]; cbn [set_nth].
  - exists (a :: l). split; [reflexivity|]. split; [reflexivity|]. intros [|j]; reflexivity.
  - destruct (IH k) as (l' & E & L & X); [cbn in H; lia|]. rewrite E. exists (b :: l'). split; [reflexivity|]. split; [cbn; lia|]. intros [|j]; [reflexivity|]. cbn. apply X.
Qed.
Lemma nth_ext {A} (l l' : list A) : (forall j, nth_error l j = nth_error l' j) -> l = l'.
Proof.
  revert l'. induction l as [|a l IH]; intros [|b l'] H; [reflexivity|specialize (H 0); discriminate|specialize (H 0); discriminate|].
  f_equal; [specialize (H 0); injection H as ->; reflexivity|]. apply IH. intro j. exact (H (S j)).
Qed.
Lemma nth_seq_map {A} (g : nat -> A) nn v : nth_error (map g (seq 0 nn)) v = if v <? nn then Some (g v) else None.
Proof.
  rewrite nth_error_map. destruct (Nat.ltb_spec v nn) as [H|H].
  - assert (E : nth_error (seq 0 nn) v = Some v); [|rewrite E; reflexivity].
    assert (X : forall n s i, i < n -> nth_error (seq s n) i = Some (s + i)). { induction n as [|n IH]; intros s [|i] Hi; try lia; cbn; [f_equal; lia|]. rewrite IH by lia. f_equal. lia. }
    rewrite X by exact H. reflexivity.
  - replace (nth_error (seq 0 nn) v) with (@None nat); [reflexivity|]. symmetry. apply nth_error_None. rewrite seq_length. exact H.
Qed.

Lemma slotv_snoc P x v b : slotv (P ++ [x]) v b = match slotv P v b with Some s => Some s | None => if at_key v b x then Some (e_to (fst x), snd x) else None end.
Proof. unfold slotv. induction P as [|y P IH]; cbn [app find]; [destruct (at_key v b x); reflexivity|]. destruct (at_key v b y); [reflexivity|exact IH]. Qed.
Lemma at_key_iff v b x : at_key v b x = true <-> key x = (v, b).
Proof.
  unfold at_key, key. rewrite andb_true_iff, Nat.eqb_eq, Bool.eqb_true_iff. split; [intros [-> ->]; reflexivity|]. intro H. injection H as -> ->. split; reflexivity.
Qed.
Lemma slotv_fresh P v b : ~ In (v, b) (map key P) -> slotv P v b = None.
Proof.
  intro H. unfold slotv. destruct (find (at_key v b) P) as [x|] eqn:F; [|reflexivity]. exfalso. apply find_some in F. destruct F as [F1 F2]. apply at_key_iff in F2. apply H. rewrite <- F2. apply in_map. exact F1.
Qed.
Lemma slotv_in P x : NoDup (map key P) -> In x P -> slotv P (e_from (fst x)) (e_up (fst x)) = Some (e_to (fst x), snd x).
Proof.
  unfold slotv. induction P as [|y P IH]; intros ND X; [destruct X|]. cbn [find]. inversion ND as [|? ? N1 N2]; subst. destruct X as [-> |X].
  - replace (at_key _ _ x) with true by (symmetry; apply at_key_iff; reflexivity). reflexivity.
  - destruct (at_key (e_from (fst x)) (e_up (fst x)) y) eqn:K; [|apply IH; assumption]. exfalso. apply at_key_iff in K. apply N1. rewrite K. exact (in_map key _ _ X).
Qed.

Lemma render_set nn P x : e_from (fst x) < nn -> ~ In (key x) (map key P) ->
  set_child (render nn P) (snd x) (e_from (fst x)) (place (fst x)) (e_to (fst x)) = Some (render nn (P ++ [x])).
Proof.
  intros L F. unfold set_child, render. rewrite nth_seq_map. apply Nat.ltb_lt in L. rewrite L. apply Nat.ltb_lt in L.
  assert (SF := slotv_fresh P (e_from (fst x)) (e_up (fst x)) F). unfold row_at at 1, place.
  assert (R : nth_error [slotv P (e_from (fst x)) false; None; slotv P (e_from (fst x)) true] (if e_up (fst x) then 2 else 0) = Some None) by (destruct (e_up (fst x)); cbn; rewrite SF; reflexivity).
  rewrite R. assert (R2 : set_nth (if e_up (fst x) then 2 else 0) (Some (e_to (fst x), snd x)) (row_at P (e_from (fst x))) = Some (row_at (P ++ [x]) (e_from (fst x)))).
  { unfold row_at. rewrite !slotv_snoc. unfold at_key. rewrite Nat.eqb_refl. destruct (e_up (fst x)) eqn:UP; cbn [set_nth andb Bool.eqb]; rewrite SF; [destruct (slotv P _ false); reflexivity|destruct (slotv P _ true); reflexivity]. }
  rewrite R2. destruct (set_nth_ok (row_at (P ++ [x]) (e_from (fst x))) (map (row_at P) (seq 0 nn)) (e_from (fst x))) as (l' & E & _ & X); [rewrite map_length, seq_length; exact L|].
  transitivity (Some l'); [exact E|]. f_equal. apply nth_ext. intro j. rewrite X, !nth_seq_map. destruct (Nat.eqb_spec j (e_from (fst x))) as [-> |NE].
  - apply Nat.ltb_lt in L. rewrite L. reflexivity.
  - destruct (j <? nn); [|reflexivity]. f_equal. unfold row_at. rewrite !slotv_snoc. unfold at_key. destruct (Nat.eqb_spec (e_from (fst x)) j) as [E2|_]; [congruence|]. cbn [andb].
    destruct (slotv P j false), (slotv P j true); reflexivity.
Qed.

Lemma NoDup_app_l {A} (l l' : list A) : NoDup (l ++ l') -> NoDup l.
Proof. induction l as [|a l IH]; intro H; [constructor|]. inversion H as [|? ? A1 A2]; subst. constructor; [intro X; apply A1; apply in_or_app; left; exact X|apply IH; exact A2]. Qed.

Section Build.
Variables (d : drawing) (R : list nodestat) (N : list nat) (f : nat -> bool * Q) (nn : nat).
Hypothesis HL : length N = length R.
Hypothesis HS : p_stats d = with_nums R N f.

(** The state while drawing. *)
Definition kinds (k : kind) (P : list drawn) : nat :=
  length (filter (fun x => match e_kind (fst x), k with Explored, Explored | Cut, Cut | Open, Open => true | _, _ => false end) P).
Definition zinv (P : list drawn) (z : tikz) : Prop :=
  z_ch z = render nn P /\ z_sb z = 0 /\ length (z_var z) = z_total z /\ length (z_obj z) = z_total z /\ z_total z = nn + kinds Open P /\
  z_feas z + z_inf z = kinds Cut P /\ (forall x, In x P -> nth_error (z_var z) (e_to (fst x)) = Some (Z.of_nat (e_var (fst x)))).
Definition dok (P : list drawn) : Prop :=
  NoDup (map key P) /\ NoDup (map (fun x => e_to (fst x)) P) /\
  forall x, In x P -> e_from (fst x) < nn /\ (e_kind (fst x) <> Open -> e_to (fst x) < nn) /\ colour_ok (e_kind (fst x)) (snd x).

Lemma kinds_snoc k P x : kinds k (P ++ [x]) = kinds k P + match e_kind (fst x), k with Explored, Explored | Cut, Cut | Open, Open => 1 | _, _ => 0 end.
Proof. unfold kinds. rewrite filter_app, app_length. f_equal. cbn [filter]. destruct (e_kind (fst x)), k; reflexivity. Qed.
Lemma dok_fresh P x : dok (P ++ [x]) -> ~ In (key x) (map key P) /\ ~ In (e_to (fst x)) (map (fun x => e_to (fst x)) P) /\ e_from (fst x) < nn /\ (e_kind (fst x) <> Open -> e_to (fst x) < nn).
Proof.
  intros (A & B & C). rewrite map_app in A, B. cbn [map] in A, B. apply NoDup_remove_2 in A. apply NoDup_remove_2 in B. rewrite app_nil_r in A, B. destruct (C x) as (C1 & C2 & _); [apply in_or_app; right; left; reflexivity|].
  repeat apply conj; assumption.
Qed.
Lemma dok_prefix P Q : dok (P ++ Q) -> dok P.
Proof.
  intros (A & B & C). rewrite map_app in A, B. split; [|split].
  - exact (NoDup_app_l _ _ A).
  - exact (NoDup_app_l _ _ B).
  - intros x X. apply C. apply in_or_app. left. exact X.
Qed.

(** Entries of an existing node are written. *)
Lemma put_ok P z x ch obj : zinv P z -> dok (P ++ [x]) -> e_kind (fst x) <> Open -> ch = render nn (P ++ [x]) ->
  exists z1, put z ch (e_to (fst x)) (Z.of_nat (e_var (fst x))) obj = Some z1 /\ z_ch z1 = ch /\ z_sb z1 = z_sb z /\ z_total z1 = z_total z /\ z_feas z1 = z_feas z /\ z_inf z1 = z_inf z /\
    length (z_var z1) = length (z_var z) /\ length (z_obj z1) = length (z_obj z) /\ (forall y, In y (P ++ [x]) -> nth_error (z_var z1) (e_to (fst y)) = Some (Z.of_nat (e_var (fst y)))).
Proof.
  intros (A & B & C & D & E & F & G) OK KD ->. destruct (dok_fresh _ _ OK) as (O1 & O2 & O3 & O4). specialize (O4 KD). unfold put.
  destruct (set_nth_ok (Z.of_nat (e_var (fst x))) (z_var z) (e_to (fst x))) as (vs & V1 & V2 & V3); [lia|].
  destruct (set_nth_ok obj (z_obj z) (e_to (fst x))) as (os & W1 & W2 & W3); [lia|]. rewrite V1, W1. eexists. split; [reflexivity|]. cbn.
  repeat (split; [first [reflexivity|assumption]|]). intros y Y. rewrite V3. apply in_app_or in Y. destruct Y as [Y|[<-|[]]].
  - destruct (Nat.eqb_spec (e_to (fst y)) (e_to (fst x))) as [EQ|_]; [|apply G; exact Y]. exfalso. apply O2. rewrite <- EQ. apply (in_map (fun x : drawn => e_to (fst x))). exact Y.
  - rewrite Nat.eqb_refl. reflexivity.
Qed.

(** The edges of a list of entries. *)
Definition expl_d (t : tstat) : list drawn :=
  map (fun e => (e, if t_found t && isVal (ns_obj (t_s t)) (t_iobj t) EPS7 then 1 else 0)) (expl1 R N (pair_of t)).
Definition cut_d (t : tstat) : list drawn :=
  map (fun e => (e, if t_found t then (if Qeq_bool (ns_obj (t_s t)) (t_iobj t) then 1 else 0) else 2)) (cut1 R N (pair_of t)).

Lemma side_place q num kd : side (ns_way q) = place {| e_from := 0; e_to := num; e_var := 0; e_up := (0 <? ns_way q)%Z; e_kind := kd |}.
Proof. unfold side, place. cbn [e_up]. destruct (Z.leb_spec (ns_way q) 0), (Z.ltb_spec 0 (ns_way q)); try lia; reflexivity. Qed.

Lemma explored_draws P z t : zinv P z -> dok (P ++ expl_d t) -> (ns_orig (t_s t) = ns_id (t_s t) -> forall p, ns_parent (t_s t) = Some p -> p < length R) ->
  (t_found t = true -> isVal (ns_obj (t_s t)) (t_iobj t) EPS7 = true) -> exists z', tikz_explored d (Some z) t = Some z' /\ zinv (P ++ expl_d t) z'.
Proof using HL HS.
  intros ZI OK PL SB. unfold tikz_explored. unfold expl_d in *. unfold expl1, pair_of in *. cbn [fst snd] in *.
  destruct (Nat.eqb_spec (ns_orig (t_s t)) (ns_id (t_s t))) as [EO|]; cbn [negb]; [|exists z; cbn [map]; rewrite app_nil_r; split; [reflexivity|exact ZI]].
  destruct (ns_parent (t_s t)) as [p|] eqn:P0; [|exists z; cbn [map]; rewrite app_nil_r; split; [reflexivity|exact ZI]].
  destruct (edge_at_nth d R N f p (t_num t) Explored HL HS (PL EO p eq_refl)) as (q & v & Q1 & Q2 & Q3). rewrite Q1. rewrite Q3 in OK |- *. cbn [map] in OK |- *.
  set (loc := if t_found t && isVal (ns_obj (t_s t)) (t_iobj t) EPS7 then 1 else 0) in *.
  set (e := {| e_from := v; e_to := t_num t; e_var := ns_var (t_s q); e_up := (0 <? ns_way (t_s q))%Z; e_kind := Explored |}) in *.
  destruct (dok_fresh _ _ OK) as (O1 & O2 & O3 & O4).
  pose proof ZI as (A & B & C & D & E & F & G). cbv zeta.
  assert (SC : set_child (z_ch z) loc (t_num q) (side (ns_way (t_s q))) (t_num t) = Some (render nn (P ++ [(e, loc)]))).
  { rewrite A, Q2, (side_place (t_s q) 0 Explored). exact (render_set nn P (e, loc) O3 O1). }
  rewrite SC. destruct (put_ok P z (e, loc) _ (ns_obj (t_s t)) ZI OK ltac:(discriminate) eq_refl) as (z1 & U0 & U1 & U2 & U3 & U4 & U5 & U6 & U7 & U8).
  match goal with |- context[match put ?a ?b ?c ?v ?o with _ => _ end] => replace (put a b c v o) with (Some z1) by (symmetry; exact U0) end.
  assert (NS : t_found t && negb (isVal (ns_obj (t_s t)) (t_iobj t) EPS7) = false). { destruct (t_found t); [rewrite SB by reflexivity; reflexivity|reflexivity]. }
  rewrite NS. exists z1. split; [reflexivity|]. unfold zinv. rewrite U1, U2, U3, U4, U5, U6, U7, !kinds_snoc. cbn [fst e e_kind]. rewrite !Nat.add_0_r. repeat (split; [first [reflexivity|assumption]|]). exact U8.
Qed.

Lemma pruned_draws P z t : zinv P z -> dok (P ++ cut_d t) -> (exists p, ns_parent (t_s t) = Some p /\ p < length R) -> (forall b, ~ In (t_num t, b) (map key P)) ->
  (t_found t = true -> Qeq_bool (ns_obj (t_s t)) (t_iobj t) = true) -> exists z', tikz_pruned d (Some z) t = Some z' /\ zinv (P ++ cut_d t) z'.
Proof using HL HS.
  intros ZI OK (p & P0 & PL) FR SB. unfold tikz_pruned. unfold cut_d in *. unfold cut1, pair_of in *. cbn [fst snd] in *. rewrite P0 in *.
  destruct (edge_at_nth d R N f p (t_num t) Cut HL HS PL) as (q & v & Q1 & Q2 & Q3). rewrite Q1. rewrite Q3 in OK |- *. cbn [map] in OK |- *.
  set (loc := if t_found t then (if Qeq_bool (ns_obj (t_s t)) (t_iobj t) then 1 else 0) else 2) in *.
  set (e := {| e_from := v; e_to := t_num t; e_var := ns_var (t_s q); e_up := (0 <? ns_way (t_s q))%Z; e_kind := Cut |}) in *.
  destruct (dok_fresh _ _ OK) as (O1 & O2 & O3 & O4). specialize (O4 ltac:(discriminate)). cbn [fst e e_to] in O4.
  pose proof ZI as (A & B & C & D & E & F & G). cbv zeta.
  assert (RW : nth_error (z_ch z) (t_num t) = Some [None; None; None]).
  { rewrite A. unfold render. rewrite nth_seq_map. apply Nat.ltb_lt in O4. rewrite O4. unfold row_at. rewrite !slotv_fresh by apply FR. reflexivity. }
  rewrite RW.
  assert (SC : set_child (z_ch z) loc (t_num q) (side (ns_way (t_s q))) (t_num t) = Some (render nn (P ++ [(e, loc)]))).
  { rewrite A, Q2, (side_place (t_s q) 0 Cut). exact (render_set nn P (e, loc) O3 O1). }
  rewrite SC. destruct (put_ok P z (e, loc) _ (ns_obj (t_s t)) ZI OK ltac:(discriminate) eq_refl) as (z1 & U0 & U1 & U2 & U3 & U4 & U5 & U6 & U7 & U8).
  match goal with |- context[match put ?a ?b ?c ?v ?o with _ => _ end] => replace (put a b c v o) with (Some z1) by (symmetry; exact U0) end.
  assert (NZ : Nat.eqb loc 0 = false). { unfold loc. destruct (t_found t); [rewrite SB by reflexivity; reflexivity|reflexivity]. }
  rewrite NZ. eexists. split; [reflexivity|]. unfold zinv, bump. cbn [z_ch z_sb z_var z_obj z_total z_feas z_inf]. rewrite U1, U2, U3, U4, U5, U6, U7, !kinds_snoc. cbn [fst e e_kind]. rewrite !Nat.add_0_r.
  repeat (split; [first [reflexivity|assumption]|]). split; [|exact U8]. destruct (t_found t); lia.
Qed.

Lemma explored_all : forall ts P z, zinv P z -> dok (P ++ flat_map expl_d ts) ->
  (forall t, In t ts -> ns_orig (t_s t) = ns_id (t_s t) -> forall p, ns_parent (t_s t) = Some p -> p < length R) ->
  (forall t, In t ts -> t_found t = true -> isVal (ns_obj (t_s t)) (t_iobj t) EPS7 = true) ->
  exists z', fold_left (tikz_explored d) ts (Some z) = Some z' /\ zinv (P ++ flat_map expl_d ts) z'.
Proof using HL HS.
  induction ts as [|t ts IH]; intros P z ZI OK H1 H2; [exists z; cbn; rewrite app_nil_r; split; [reflexivity|exact ZI]|].
  cbn [flat_map fold_left] in *. rewrite app_assoc in OK |- *. destruct (explored_draws P z t ZI (dok_prefix _ _ OK) (H1 t (or_introl eq_refl)) (H2 t (or_introl eq_refl))) as (z1 & E1 & Z1).
  rewrite E1. apply IH; [exact Z1|exact OK|intros t' X; apply H1; right; exact X|intros t' X; apply H2; right; exact X].
Qed.
Lemma pruned_all : forall ts P z, zinv P z -> dok (P ++ flat_map cut_d ts) ->
  (forall t, In t ts -> exists p, ns_parent (t_s t) = Some p /\ p < length R) ->
  (forall t, In t ts -> forall b, ~ In (t_num t, b) (map key (P ++ flat_map cut_d ts))) ->
  (forall t, In t ts -> t_found t = true -> Qeq_bool (ns_obj (t_s t)) (t_iobj t) = true) ->
  exists z', fold_left (tikz_pruned d) ts (Some z) = Some z' /\ zinv (P ++ flat_map cut_d ts) z'.
Proof using HL HS.
  induction ts as [|t ts IH]; intros P z ZI OK H1 H2 H3; [exists z; cbn; rewrite app_nil_r; split; [reflexivity|exact ZI]|].
  cbn [flat_map fold_left] in *. rewrite app_assoc in OK |- *. rewrite app_assoc in H2.
  assert (FR : forall b, ~ In (t_num t, b) (map key P)). { intros b X. apply (H2 t (or_introl eq_refl) b). rewrite !map_app. apply in_or_app. left. apply in_or_app. left. exact X. }
  destruct (pruned_draws P z t ZI (dok_prefix _ _ OK) (H1 t (or_introl eq_refl)) FR (H3 t (or_introl eq_refl))) as (z1 & E1 & Z1).
  rewrite E1. apply IH; [exact Z1|exact OK|intros t' X; apply H1; right; exact X|intros t' X; apply H2; right; exact X|intros t' X; apply H3; right; exact X].
Qed.

(** One open branch. *)
Lemma branch_draws P z q b lab nd up : zinv P z -> let x := (leaf_edge lab nd up (z_total z), 3) in dok (P ++ [x]) -> t_num q = lab (cn_num nd) -> ns_var (t_s q) = cn_var nd ->
  (if Nat.eqb b 0 then (ns_way (t_s q) <=? 0)%Z else negb (ns_way (t_s q) <=? 0)%Z) = up -> exists z', tikz_branch q (Some z) b = Some z' /\ zinv (P ++ [x]) z' /\ z_total z' = S (z_total z).
Proof.
  intros ZI x OK T1 T2 SD. destruct (dok_fresh _ _ OK) as (O1 & O2 & O3 & _). pose proof ZI as (A & B & C & D & E & F & G). unfold tikz_branch. cbv zeta. rewrite SD.
  assert (SC : set_child (z_ch z) 3 (t_num q) (if up then 2 else 0) (z_total z) = Some (render nn (P ++ [x]))). { rewrite A, T1. exact (render_set nn P x O3 O1). }
  rewrite SC. eexists. split; [reflexivity|]. split; [|reflexivity]. unfold zinv. cbn [z_ch z_sb z_var z_obj z_total z_feas z_inf]. rewrite !app_length, !kinds_snoc. cbn [fst x leaf_edge e_kind length].
  split; [reflexivity|]. split; [exact B|]. split; [lia|]. split; [lia|]. split; [lia|]. split; [lia|]. intros y Y. apply in_app_or in Y. destruct Y as [Y|[<-|[]]].
  - rewrite nth_error_app1; [apply G; exact Y|]. specialize (G y Y). apply nth_lt in G. exact G.
  - cbn [fst x leaf_edge e_to e_var]. rewrite nth_error_app2 by lia. rewrite C, Nat.sub_diag, T2. reflexivity.
Qed.
Lemma leaves_all lab G k : forall tree P z, zinv P z -> dok (P ++ map (fun e => (e, 3)) (leaf_list lab tree (z_total z))) -> (forall nd, In nd tree -> node_ok R N lab G k nd) ->
  exists z', fold_left (tikz_leaf d) (map cn_num tree) (Some z) = Some z' /\ zinv (P ++ map (fun e => (e, 3)) (leaf_list lab tree (z_total z))) z'.
Proof using HL HS.
  induction tree as [|nd r IH]; intros P z ZI OK H; [exists z; cbn; rewrite app_nil_r; split; [reflexivity|exact ZI]|].
  destruct (H nd (or_introl eq_refl)) as (LE & DC & (s & S1 & S2 & S3 & S4 & _) & N1 & _).
  destruct (with_nth R N f (cn_num nd) s _ HL S1 N1) as (t & T1 & T2 & T3). rewrite <- HS in T1.
  cbn [map fold_left]. assert (TL : tikz_leaf d (Some z) (cn_num nd) = fold_left (tikz_branch t) (seq (2 - cn_left nd) (2 - (2 - cn_left nd))) (Some z)) by (unfold tikz_leaf; rewrite T1, T2, S3; reflexivity).
  rewrite TL. cbn [leaf_list] in OK |- *. rewrite map_app, app_assoc in OK |- *.
  assert (WAY : (ns_way (t_s t) <=? 0)%Z = negb (cur_up nd)). { rewrite T2, S4. unfold way_code. destruct (cur_up nd); [reflexivity|]. destruct DC as [-> | ->]; reflexivity. }
  destruct LE as [L1|L2].
  - unfold open_sides in OK |- *. rewrite L1 in OK |- *. cbn [Nat.eqb length seq combine map fst snd Nat.sub fold_left] in OK |- *.
    destruct (branch_draws P z t 1 lab nd (negb (cn_up nd)) ZI (dok_prefix _ _ OK) T3 ltac:(congruence)) as (z1 & E1 & Z1 & TT).
    { cbn [Nat.eqb]. rewrite WAY, negb_involutive. apply cur_up_one. exact L1. }
    rewrite E1. replace (z_total z + 1) with (z_total z1) in OK |- * by lia. apply IH; [exact Z1|exact OK|intros m M; apply H; right; exact M].
  - unfold open_sides in OK |- *. rewrite L2 in OK |- *. cbn [Nat.eqb length seq combine map fst snd Nat.sub fold_left] in OK |- *.
    set (x1 := (leaf_edge lab nd (negb (cn_up nd)) (z_total z), 3) : drawn) in *. set (x2 := (leaf_edge lab nd (cn_up nd) (S (z_total z)), 3) : drawn) in *.
    assert (OK2 : dok (((P ++ [x1]) ++ [x2]) ++ map (fun e : edge => (e, 3)) (leaf_list lab r (z_total z + 2)))) by (rewrite <- (app_assoc P); exact OK).
    assert (GO : exists z' : tikz, fold_left (tikz_leaf d) (map cn_num r) (tikz_branch t (tikz_branch t (Some z) 0) 1) = Some z' /\ zinv (((P ++ [x1]) ++ [x2]) ++ map (fun e : edge => (e, 3)) (leaf_list lab r (z_total z + 2))) z').
    { destruct (branch_draws P z t 0 lab nd (negb (cn_up nd)) ZI (dok_prefix _ _ (dok_prefix _ _ OK2)) T3 ltac:(congruence)) as (z1 & E1 & Z1 & TT).
      { cbn [Nat.eqb]. rewrite WAY. f_equal. apply cur_up_two. exact L2. }
      rewrite E1. assert (OK3 : dok ((P ++ [x1]) ++ [(leaf_edge lab nd (cn_up nd) (z_total z1), 3)])) by (rewrite TT; exact (dok_prefix _ _ OK2)).
      destruct (branch_draws (P ++ [x1]) z1 t 1 lab nd (cn_up nd) Z1 OK3 T3 ltac:(congruence)) as (z2 & E2 & Z2 & TT2).
      { cbn [Nat.eqb]. rewrite WAY, negb_involutive. apply cur_up_two. exact L2. }
      rewrite E2. replace (z_total z + 2) with (z_total z2) in OK2 |- * by lia. rewrite TT in Z2. apply IH; [exact Z2|exact OK2|intros m M; apply H; right; exact M]. }
    destruct GO as (z' & G1 & G2). exists z'. split; [exact G1|]. rewrite <- (app_assoc P) in G2. exact G2.
Qed.
End Build.

Lemma repeat_render nn : repeat empty_row nn = render nn [].
Proof.
  unfold render. assert (X : forall n s, repeat empty_row n = map (row_at []) (seq s n)) by (induction n as [|n IH]; intro s; [reflexivity|]; cbn [repeat seq map]; f_equal; apply IH). apply X.
Qed.
Lemma map_fst_flat {A} (g : A -> list drawn) (h : A -> list edge) l : (forall a, map fst (g a) = h a) -> map fst (flat_map g l) = flat_map h l.
Proof. intro H. induction l as [|a l IH]; [reflexivity|]. cbn [flat_map]. rewrite map_app, H, IH. reflexivity. Qed.
Lemma flat_map_pairs {A B} (g : A -> B) (h : B -> list edge) l : flat_map (fun a => h (g a)) l = flat_map h (map g l).
Proof. induction l as [|a l IH]; [reflexivity|]. cbn [flat_map map]. rewrite IH. reflexivity. Qed.
Lemma In_fst (P : list drawn) e : In e (map fst P) -> exists l, In (e, l) P.
Proof. intro H. apply in_map_iff in H. destruct H as ([e' l] & <- & H). exists l. exact H. Qed.
Lemma NoDup_map_inj {A B} (g : A -> B) l a b : NoDup (map g l) -> In a l -> In b l -> g a = g b -> a = b.
Proof.
  induction l as [|x l IH]; intros ND Ha Hb E; [destruct Ha|]. cbn [map] in ND. inversion ND as [|? ? N1 N2]; subst. destruct Ha as [<-|Ha]; destruct Hb as [<-|Hb]; [reflexivity| | |apply IH; assumption].
  - exfalso. apply N1. rewrite E. apply in_map. exact Hb.
  - exfalso. apply N1. rewrite <- E. apply in_map. exact Ha.
Qed.

Section Picture.
Variables (st : hst) (u : numst) (lab : nat -> nat) (G : list edge) (k : nat) (found pfound : nat -> bool * Q).
Hypothesis SY : sync st u lab G k.
Hypothesis UA : u_act u = length (h_tree st).
Hypothesis UF : u_final u = map cn_num (h_tree st).
Let d := drawing_of st u found pfound.
Hypothesis SB : no_strong_branching d.
Let L := leaf_list lab (h_tree st) (S k).
Let R := h_stats st.
Let N := u_nums u.
Let P1 := flat_map (expl_d R N) (p_stats d).
Let P2 := map (fun e : edge => (e, 3)) L : list drawn.
Let P3 := flat_map (cut_d R N) (p_pruned d).

Lemma fst_P1 : map fst P1 = expl R N.
Proof using SY.
  unfold P1. rewrite (map_fst_flat _ (fun t => expl1 R N (pair_of t))) by (intro t; unfold expl_d; rewrite map_map; cbn; apply map_id). rewrite flat_map_pairs. unfold d, drawing_of. cbn [p_stats].
  rewrite with_pairs by apply SY. reflexivity.
Qed.
Lemma fst_P3 : map fst P3 = cuts R N (h_pruned st) (u_pnums u).
Proof using SY.
  unfold P3. rewrite (map_fst_flat _ (fun t => cut1 R N (pair_of t))) by (intro t; unfold cut_d; rewrite map_map; cbn; apply map_id). rewrite flat_map_pairs. unfold d, drawing_of. cbn [p_pruned].
  rewrite with_pairs by apply SY. reflexivity.
Qed.
Lemma fst_P2 : map fst P2 = L.
Proof. unfold P2. rewrite map_map. cbn. apply map_id. Qed.
Lemma perm_P : Permutation (map fst (P1 ++ P2 ++ P3)) (G ++ L).
Proof using SY.
  rewrite !map_app, fst_P1, fst_P2, fst_P3. destruct SY as (_ & _ & _ & _ & _ & _ & _ & _ & _ & _ & PE). eapply Permutation_trans; [apply Permutation_app_head, Permutation_app_comm|]. rewrite app_assoc. apply Permutation_app_tail. exact PE.
Qed.
Lemma whole : is_tree (G ++ L) /\ two_sided (G ++ L).
Proof using SY. apply (whole_tree st u lab G k L SY). apply leaf_list_of. Qed.

Lemma L_facts e : In e L -> e_kind e = Open /\ e_from e <= k.
Proof using SY SB UA UF.
  intro X. destruct (leaf_list_of lab (h_tree st) (S k)) as (A & _ & B). fold L in A, B. split; [exact (proj1 (Forall_forall _ _) B e X)|].
  apply (in_map (fun e => (e_from e, e_var e, e_up e))) in X. rewrite A in X. unfold open_branches in X. apply in_flat_map in X. destruct X as (nd & N1 & N2). apply in_map_iff in N2. destruct N2 as (up & E & _). injection E as E _ _.
  destruct SY as (_ & _ & _ & _ & _ & _ & H & _). destruct (H nd N1) as (_ & _ & _ & _ & LK & _). lia.
Qed.
Lemma edge_at_kind p num kd e : In e (edge_at R N p num kd) -> e_kind e = kd.
Proof. unfold edge_at. destruct (nth_error R p); [|intros []]. destruct (nth_error N p); [|intros []]. intros [<-|[]]. reflexivity. Qed.

Lemma dok_P : dok (S k) (P1 ++ P2 ++ P3).
Proof using SY SB UA UF.
  destruct whole as [[W1 W2] W3]. pose proof perm_P as PP. split; [|split].
  - replace (map key (P1 ++ P2 ++ P3)) with (map (fun e => (e_from e, e_up e)) (map fst (P1 ++ P2 ++ P3))) by (rewrite map_map; reflexivity).
    apply (Permutation_NoDup (Permutation_map _ (Permutation_sym PP))). exact W3.
  - replace (map (fun x : drawn => e_to (fst x)) (P1 ++ P2 ++ P3)) with (map e_to (map fst (P1 ++ P2 ++ P3))) by (rewrite map_map; reflexivity).
    apply (Permutation_NoDup (Permutation_map _ (Permutation_sym PP))). exact W1.
  - intros x X. assert (XG : In (fst x) (G ++ L)) by (apply (Permutation_in _ PP), in_map; exact X).
    assert (KE : In (fst x) G -> e_from (fst x) < S k /\ (e_kind (fst x) <> Open -> e_to (fst x) < S k)).
    { intro Y. destruct SY as (_ & _ & _ & _ & _ & _ & _ & _ & _ & (_ & _ & K3) & _). destruct (K3 _ Y) as (A & B & _). split; [lia|intros _; lia]. }
    assert (KK : e_from (fst x) < S k /\ (e_kind (fst x) <> Open -> e_to (fst x) < S k)).
    { apply in_app_or in XG. destruct XG as [Y|Y]; [exact (KE Y)|]. destruct (L_facts _ Y) as [A B]. split; [lia|]. intro C. contradiction. }
    split; [apply KK|]. split; [apply KK|]. destruct SB as [SB1 SB2]. apply in_app_or in X. destruct X as [X|X]; [|apply in_app_or in X; destruct X as [X|X]].
    + unfold P1 in X. apply in_flat_map in X. destruct X as (t & T1 & T2). unfold expl_d in T2. apply in_map_iff in T2. destruct T2 as (e & <- & T2). cbn [fst snd].
      assert (EK : e_kind e = Explored). { unfold expl1 in T2. destruct (Nat.eqb _ _); [|destruct T2]. destruct (ns_parent _); [|destruct T2]. exact (edge_at_kind _ _ _ _ T2). }
      rewrite EK. cbn. destruct (t_found t && _); [right|left]; reflexivity.
    + unfold P2 in X. apply in_map_iff in X. destruct X as (e & <- & X). cbn [fst snd]. destruct (L_facts _ X) as [-> _]. reflexivity.
    + unfold P3 in X. apply in_flat_map in X. destruct X as (t & T1 & T2). unfold cut_d in T2. apply in_map_iff in T2. destruct T2 as (e & <- & T2). cbn [fst snd].
      assert (EK : e_kind e = Cut). { unfold cut1 in T2. destruct (ns_parent _); [|destruct T2]. exact (edge_at_kind _ _ _ _ T2). }
      rewrite EK. cbn. destruct (t_found t) eqn:TF; [|right; reflexivity]. rewrite (SB2 t T1 TF). left. reflexivity.
Qed.

Lemma build_spec root_obj : h_tree st <> [] -> exists z, tikz_build d root_obj = Some z /\ zinv (S k) (P1 ++ P2 ++ P3) z.
Proof using SY SB UA UF.
  intro NE. pose proof SY as (A & B & C & D & E & F & H & I & J & K & PE). pose proof dok_P as OK.
  assert (HS : p_stats d = with_nums R N found) by reflexivity. assert (HN : p_nodes d = S k) by exact J.
  assert (PL : p_leaves d = map cn_num (h_tree st)) by (unfold d, drawing_of; cbn [p_leaves]; rewrite UA, UF; apply firstn_all2; rewrite map_length; lia).
  unfold tikz_build. rewrite HN, PL.
  set (z0 := {| z_ch := repeat empty_row (S k); z_var := (-1)%Z :: repeat 0%Z k; z_obj := root_obj :: repeat 0%Q k; z_sb := 0; z_total := S k; z_feas := 0; z_inf := 0 |}).
  assert (Z0 : zinv (S k) [] z0).
  { unfold zinv, z0. cbn [z_ch z_sb z_var z_obj z_total z_feas z_inf length]. rewrite !repeat_length. split; [apply repeat_render|]. split; [reflexivity|]. split; [reflexivity|]. split; [reflexivity|]. split; [cbn; lia|]. split; [reflexivity|]. intros ? []. }
  destruct (explored_all d R N found (S k) B HS (p_stats d) [] z0 Z0) as (z1 & E1 & Z1).
  { cbn [app]. fold P1. exact (dok_prefix _ _ _ OK). }
  { intros t X EO p P. apply (in_map pair_of) in X. rewrite HS, with_pairs in X by exact B. apply in_combine_l in X. apply In_nth_error in X. destruct X as [i X]. destruct (E i _ X) as (O1 & _ & O2).
    specialize (O2 ltac:(congruence) p P). apply nth_lt in X. exact (Nat.lt_trans _ _ _ O2 X). }
  { apply SB. }
  rewrite E1. cbn [app] in Z1. fold P1 in Z1.
  assert (T1 : z_total z1 = S k).
  { destruct Z1 as (_ & _ & _ & _ & T & _). rewrite T. assert (K0 : kinds Open P1 = 0); [|lia]. unfold kinds. replace (filter _ P1) with (@nil drawn); [reflexivity|]. symmetry.
    assert (AL : forall x, In x P1 -> e_kind (fst x) = Explored).
    { intros x X. unfold P1 in X. apply in_flat_map in X. destruct X as (t & X1 & X2). unfold expl_d in X2. apply in_map_iff in X2. destruct X2 as (e & <- & X2). cbn [fst].
      unfold expl1 in X2. destruct (Nat.eqb _ _); [|destruct X2]. destruct (ns_parent _); [|destruct X2]. exact (edge_at_kind _ _ _ _ X2). }
    clear - AL. induction P1 as [|x P IH]; [reflexivity|]. cbn [filter]. rewrite (AL x (or_introl eq_refl)). apply IH. intros y Y. apply AL. right. exact Y. }
  assert (LL : map (fun e : edge => (e, 3)) (leaf_list lab (h_tree st) (z_total z1)) = P2) by (rewrite T1; reflexivity).
  destruct (leaves_all d R N found (S k) B HS lab G k (h_tree st) P1 z1 Z1) as (z2 & E2 & Z2).
  { rewrite LL. rewrite app_assoc in OK. exact (dok_prefix _ _ _ OK). }
  { exact H. }
  rewrite E2. rewrite LL in Z2.
  destruct (pruned_all d R N found (S k) B HS (p_pruned d) (P1 ++ P2) z2 Z2) as (z3 & E3 & Z3).
  { fold P3. rewrite <- app_assoc. exact OK. }
  { intros t X. apply (in_map pair_of) in X. assert (PP : map pair_of (p_pruned d) = combine (h_pruned st) (u_pnums u)) by (apply with_pairs; exact D). rewrite PP in X. apply in_combine_l in X. exact (F _ X). }
  { fold P3. rewrite <- app_assoc. intros t X b Y. destruct whole as [[W1 W2] _].
    assert (TE : exists e, In e (G ++ L) /\ e_to e = t_num t /\ e_kind e = Cut).
    { assert (CT : In t (p_pruned d)) by exact X. apply (in_map pair_of) in X. assert (PP : map pair_of (p_pruned d) = combine (h_pruned st) (u_pnums u)) by (apply with_pairs; exact D). rewrite PP in X. apply in_combine_l in X. destruct (F _ X) as (id & F1 & F2). cbn [fst pair_of] in F1.
      destruct (edge_at_nth d R N found id (t_num t) Cut B HS F2) as (q & v & _ & _ & Q3).
      exists {| e_from := v; e_to := t_num t; e_var := ns_var (t_s q); e_up := (0 <? ns_way (t_s q))%Z; e_kind := Cut |}. split; [|split; reflexivity].
      apply (Permutation_in _ perm_P). rewrite !map_app. apply in_or_app. right. apply in_or_app. right. rewrite fst_P3. unfold cuts. apply in_flat_map. exists (pair_of t). split; [rewrite <- PP; apply in_map; exact CT|].
      unfold cut1, pair_of. cbn [fst snd]. rewrite F1, Q3. left. reflexivity. }
    destruct TE as (e & TE1 & TE2 & TE3). apply in_map_iff in Y. destruct Y as (y & Y1 & Y2). unfold key in Y1. injection Y1 as Y1 _. apply (in_map fst) in Y2. apply (Permutation_in _ perm_P) in Y2.
    destruct (W2 _ Y2) as [_ [W|(e' & W3 & W4 & W5)]].
    - destruct (W2 e TE1) as [W3 _]. lia.
    - assert (e = e') by (apply (NoDup_map_inj e_to (G ++ L)); try assumption; congruence). subst e'. congruence. }
  { apply SB. }
  rewrite E3. rewrite <- app_assoc in Z3. fold P3 in Z3. destruct (map cn_num (h_tree st)) as [|a r] eqn:M; [destruct (h_tree st); [contradiction|discriminate]|]. exists z3. split; [reflexivity|exact Z3].
Qed.

Lemma zinv_pictured P z : zinv (S k) P z -> dok (S k) P -> pictured z (map fst P).
Proof.
  intros (A & _ & _ & _ & _ & _ & V) (K1 & _ & K3). split.
  - intros e X. destruct (In_fst P e X) as (l & X1). split; [exact (V _ X1)|]. exists l. destruct (K3 _ X1) as (F1 & _ & F2). cbn [fst snd] in F1, F2. split; [|exact F2].
    unfold slot_of. rewrite A. unfold render. rewrite nth_seq_map. apply Nat.ltb_lt in F1. rewrite F1. pose proof (slotv_in P (e, l) K1 X1) as SV. cbn [fst snd] in SV. unfold row_at, place. destruct (e_up e); cbn [nth_error]; exact SV.
  - intros v c w loc SL. unfold slot_of in SL. rewrite A in SL. unfold render in SL. rewrite nth_seq_map in SL. destruct (v <? S k); [|discriminate].
    assert (FD : forall b, slotv P v b = Some (w, loc) -> exists e, In e (map fst P) /\ e_from e = v /\ e_to e = w /\ e_up e = b).
    { intros b Q. unfold slotv in Q. destruct (find (at_key v b) P) as [x|] eqn:FI; [|discriminate]. apply find_some in FI. destruct FI as [FI1 FI2]. apply at_key_iff in FI2. unfold key in FI2. injection FI2 as I1 I2. injection Q as Q1 Q2.
      exists (fst x). split; [apply in_map; exact FI1|]. repeat apply conj; assumption. }
    unfold row_at in SL. destruct c as [|[|[|c]]]; cbn [nth_error] in SL.
    + destruct (FD false SL) as (e & E1 & E2 & E3 & E4). exists e. unfold place. rewrite E4. repeat apply conj; try assumption; reflexivity.
    + discriminate.
    + destruct (FD true SL) as (e & E1 & E2 & E3 & E4). exists e. unfold place. rewrite E4. repeat apply conj; try assumption; reflexivity.
    + destruct c; discriminate.
Qed.
End Picture.

(** The text can be written: the recursion ends and stays inside the vectors. *)
Section Text.
Variables (fmt : Q -> text) (po : bool) (nn : nat) (z : tikz).
Hypothesis CH : forall v row c l, v < nn -> nth_error (z_ch z) v = Some row -> In (Some (c, l)) row -> v < c /\ nth_error (z_var z) c <> None.

Lemma text_ok : forall fuel node depth ci loc, 1 <= fuel -> (node < nn -> nn - node < fuel) -> (node = 0 \/ nth_error (z_var z) node <> None) ->
  exists t, tikz_text fuel fmt po nn z node depth ci loc = Some t.
Proof using CH.
  induction fuel as [|fl IH]; intros node depth ci loc F1 F2 NV; [lia|]. cbn [tikz_text].
  assert (NT : exists t, node_text fmt po z node depth ci loc = Some t).
  { unfold node_text. cbv zeta. destruct (Nat.eqb_spec node 0) as [E0|E0]; [eexists; reflexivity|]. destruct (Nat.eqb loc 4); [eexists; reflexivity|].
    destruct (nth_error (z_var z) node); [eexists; reflexivity|]. exfalso. destruct NV as [NV|NV]; [contradiction|apply NV; reflexivity]. }
  destruct NT as (t & ->). set (row := if Nat.ltb node nn && negb (Nat.eqb loc 4) then match nth_error (z_ch z) node with Some r => r | None => [] end else []).
  assert (KIDS : forall c l, In (Some (c, l)) row -> forall dp ci' l', exists t, tikz_text fl fmt po nn z c dp ci' l' = Some t).
  { intros c l X dp ci' l'. unfold row in X. destruct (Nat.ltb_spec node nn) as [LT|]; [|destruct X]. destruct (negb (Nat.eqb loc 4)); [|destruct X]. cbn [andb] in X. destruct (nth_error (z_ch z) node) as [r|] eqn:RW; [|destruct X].
    destruct (CH node r c l LT RW X) as [C1 C2]. apply IH; [specialize (F2 LT); lia|intro; specialize (F2 LT); lia|right; exact C2]. }
  assert (FO : forall xs acc, (forall i s, In (i, s) xs -> In s row) -> exists r, fold_left
       (fun (a : option (text * bool)) (x : nat * slot) =>
          match a, snd x with
          | None, _ => None
          | Some b, None => Some b
          | Some (str, added), Some (c, l) =>
              match tikz_text fl fmt po nn z c (S depth) (fst x) l with
              | None => None
              | Some ct => Some (str ++ (if added then txt "," else txt " -- {") ++ [newline] ++ ct, true)
              end
          end) xs (Some acc) = Some r).
  { induction xs as [|[i s] xs IHx]; intros [str added] HX; [eexists; reflexivity|]. cbn [fold_left snd fst]. destruct s as [[c l]|].
    - destruct (KIDS c l (HX i _ (or_introl eq_refl)) (S depth) i l) as (ct & ->). apply IHx. intros j s X. apply (HX j). right. exact X.
    - apply IHx. intros j s X. apply (HX j). right. exact X. }
  destruct (FO (combine (seq 0 (length row)) row) ([], false)) as ([str added] & FE); [intros i s X; exact (in_combine_r _ _ _ _ X)|].
  match goal with |- exists t0, match ?a with _ => _ end = _ => replace a with (Some (str, added)) by (symmetry; exact FE) end. eexists. reflexivity.
Qed.
End Text.
