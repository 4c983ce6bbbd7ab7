(** C75: the drawings of the partial tree (TreePlot and TikZ) show the search that took place: every branching once, every branch
    still open once, nothing else. *)
From Coq Require Import String Permutation.
From Verif Require Import Prelude Model.Tolerance Model.Disjunction Model.EventHandler Model.TextUtil Model.Names Model.TreeDrawing
  Spec.TreeSpec Spec.DrawingSpec Proofs.EventHandlerP Proofs.TreeDrawingP Proofs.TikzP Properties.C06_tree_coverage.
#[local] Open Scope string_scope.
#[local] Open Scope list_scope.
#[local] Open Scope nat_scope.

Lemma tree_perm E F : Permutation E F -> is_tree F /\ two_sided F -> is_tree E /\ two_sided E.
Proof.
  intros P [[A B] C]. split; [split|].
  - apply (Permutation_NoDup (Permutation_map _ (Permutation_sym P))). exact A.
  - intros e X. destruct (B e (Permutation_in _ P X)) as [B1 [B2|(e' & B2 & B3)]]; split; try exact B1; [left; exact B2|]. right. exists e'. split; [exact (Permutation_in _ (Permutation_sym P) B2)|exact B3].
  - apply (Permutation_NoDup (Permutation_map _ (Permutation_sym P))). exact C.
Qed.

(** When a search ends at its first attempt to save, the text for TreePlot lists exactly the branchings that took place and one edge
    for every open branch, and these form a tree with at most one child on each side of a node. *)
Theorem plot_shows_search cfg ints lo up root d st u lab G k a st' found pfound :
  root_ok (c_n cfg) ints root -> (0 < c_max cfg)%Z ->
  searched cfg ints (h_init lo up root d) st u lab G k -> lawful cfg ints st a -> step cfg st a = EvStop st' -> u_final u = [] ->
  exists E L, generateTreePlotString (drawing_of st' (step_nums cfg st u a k) found pfound) = Some (plot_says E) /\
    Permutation E (G ++ L) /\ leaves_of lab (h_tree st') (S k) L /\ is_tree E /\ two_sided E.
Proof.
  intros RO MX SE LW ST UF. destruct (searched_stop cfg ints lo up root d RO MX st u lab G k a st' SE LW ST) as (SY & F & A). rewrite UF in F. cbn [app] in F.
  destruct (plot_text st' _ lab G k found pfound SY A F) as (E & L & T & P & LV). exists E, L. split; [exact T|]. split; [exact P|]. split; [exact LV|].
  exact (tree_perm _ _ P (whole_tree _ _ _ _ _ _ SY LV)).
Qed.
Print Assumptions plot_shows_search.

Lemma kinds_of kd P : kinds kd P = of_kind kd (map fst P).
Proof. unfold kinds, of_kind. induction P as [|x P IH]; [reflexivity|]. cbn [map filter]. destruct (e_kind (fst x)), kd; cbn [length]; congruence. Qed.
Lemma kind_perm kd E F : Permutation E F -> of_kind kd E = of_kind kd F.
Proof.
  unfold of_kind. induction 1 as [|x E F _ IH|x y E|E F H _ IH1 _ IH2]; [reflexivity| | |congruence]; cbn [filter].
  - destruct (e_kind x), kd; cbn [length]; congruence.
  - destruct (e_kind x), (e_kind y), kd; reflexivity.
Qed.

(** So does the picture, unless integer solutions were found during strong branching: left children are down branches, right children
    up branches, colours tell explored, pruned and open children apart, and the numbers of nodes in the caption are right. *)
Theorem picture_shows_search cfg ints lo up root d st u lab G k a st' found pfound root_obj fmt temp :
  root_ok (c_n cfg) ints root -> (0 < c_max cfg)%Z ->
  searched cfg ints (h_init lo up root d) st u lab G k -> lawful cfg ints st a -> step cfg st a = EvStop st' -> u_final u = [] ->
  h_tree st' <> [] -> let D := drawing_of st' (step_nums cfg st u a k) found pfound in no_strong_branching D ->
  exists z E L t, tikz_build D root_obj = Some z /\ pictured z E /\
    Permutation E (G ++ L) /\ leaves_of lab (h_tree st') (S k) L /\ is_tree E /\ two_sided E /\
    z_total z = S k + of_kind Open E /\ z_feas z + z_inf z = of_kind Cut E /\
    tikz_graph D fmt temp root_obj = Some t.
Proof.
  intros RO MX SE LW ST UF NE D SB. destruct (searched_stop cfg ints lo up root d RO MX st u lab G k a st' SE LW ST) as (SY & F & A). rewrite UF in F. cbn [app] in F.
  destruct (build_spec st' _ lab G k found pfound SY A F SB root_obj NE) as (z & B & ZI). pose proof (dok_P st' _ lab G k found pfound SY A F SB) as OK. pose proof (perm_P st' _ lab G k found pfound SY) as PP.
  set (P := flat_map _ _ ++ _ ++ _) in ZI, OK, PP. pose proof (zinv_pictured k P z ZI OK) as PI. pose proof (whole st' _ lab G k SY) as WH. pose proof (leaf_list_of lab (h_tree st') (S k)) as LV. set (L := leaf_list lab (h_tree st') (S k)) in *.
  destruct (tree_perm _ _ PP WH) as [T1 T2]. destruct ZI as (_ & _ & _ & _ & ZT & ZC & _). rewrite kinds_of in ZT, ZC.
  assert (PN : p_nodes D = S k) by (destruct SY as (_ & _ & _ & _ & _ & _ & _ & _ & J & _); exact J).
  assert (R0 : exists r, nth_error (p_stats D) 0 = Some r).
  { destruct SY as (N0 & LN & _). unfold D, drawing_of. cbn [p_stats]. unfold with_nums. destruct (h_stats st') as [|s0 r]; [contradiction|]. destruct (u_nums _) as [|n0 ns]; [discriminate|]. eexists. reflexivity. }
  destruct R0 as (r & R0).
  assert (TX : exists t, tikz_graph D fmt temp root_obj = Some t).
  { unfold tikz_graph. replace (tikz_build D root_obj) with (Some z) by (symmetry; exact B). rewrite R0, PN. apply text_ok; [|lia|lia|left; reflexivity].
    intros v row c l _ RW X. apply In_nth_error in X. destruct X as [i X]. destruct PI as [PI1 PI2]. destruct (PI2 v i c l) as (e & E1 & E2 & E3 & _); [unfold slot_of, slot in *; rewrite RW, X; reflexivity|].
    destruct T1 as [_ T1]. destruct (T1 e E1) as [T3 _]. destruct (PI1 e E1) as [V _]. rewrite E2, E3 in T3. rewrite E3 in V. split; [exact T3|congruence]. }
  destruct TX as (t & TX). exists z, (map fst P), L, t.
  split; [exact B|]. split; [exact PI|]. split; [exact PP|]. split; [exact LV|]. split; [exact T1|]. split; [exact T2|]. split; [exact ZT|]. split; [exact ZC|exact TX].
Qed.
Print Assumptions picture_shows_search.

(** * A run: the search of C06 with three leaves. *)
Definition quiet (_ : nat) : bool * Q := (false, 0%Q).
Definition c3 := ex_cfg false 3.
Definition u1 := step_nums c3 ex_s0 num_init (tree_now ex_s0 ok_solve) 0.
Definition u2 := step_nums c3 ex_s1 u1 (ABranch 0 (Created ex_child)) 1.
Definition u3 := step_nums c3 ex_s2 u2 (tree_now ex_s2 ok_solve) 1.
Definition E1 : edge := {| e_from := 0; e_to := 1; e_var := 0; e_up := true; e_kind := Explored |}.
Definition lab1 : nat -> nat := next_lab ex_s1 (fun _ => 0) ex_root (Created ex_child) 1.
Lemma ex_searched : searched c3 (fun _ => true) ex_s0 ex_s2 u2 lab1 [E1] 1.
Proof.
  apply (se_branch c3 (fun _ => true) ex_s0 ex_s1 u1 (fun _ => 0) [] 0 0 (Created ex_child) ex_root 1 ex_s2); [| |reflexivity|lia|reflexivity].
  - apply (se_other c3 (fun _ => true) ex_s0 ex_s0 num_init (fun _ => 0) [] 0 (tree_now ex_s0 ok_solve) ex_s1); [constructor| |intros; discriminate|reflexivity].
    split; [apply Permutation_refl|]. left. left. reflexivity.
  - split; [discriminate|]. split; [right; reflexivity|exact ex_decision].
Qed.
Example drawing_example :
  (exists E L, generateTreePlotString (drawing_of ex_s3 u3 quiet quiet) = Some (plot_says E) /\ Permutation E ([E1] ++ L) /\ leaves_of lab1 (h_tree ex_s3) 2 L /\ is_tree E /\ two_sided E) /\
  (exists z E L t, tikz_build (drawing_of ex_s3 u3 quiet quiet) 0%Q = Some z /\ pictured z E /\ Permutation E ([E1] ++ L) /\ leaves_of lab1 (h_tree ex_s3) 2 L /\ is_tree E /\ two_sided E /\
     z_total z = 2 + of_kind Open E /\ z_feas z + z_inf z = of_kind Cut E /\ tikz_graph (drawing_of ex_s3 u3 quiet quiet) (fun _ => []) (-1)%Z 0%Q = Some t) /\
  List.length (open_branches lab1 (h_tree ex_s3)) = 3 /\
  option_map string_of_list_ascii (generateTreePlotString (drawing_of ex_s3 u3 quiet quiet)) =
    Some "TreePlot[{{0->1, ""0""}, {1->2, ""1""}, {1->3, ""1""}, {0->4, ""0""}}, Automatic, 0, VertexLabeling -> True]".
Proof.
  assert (LW : lawful c3 (fun _ => true) ex_s2 (tree_now ex_s2 ok_solve)) by (split; [apply Permutation_refl|left; right; reflexivity]).
  split; [|split; [|split; [vm_compute; reflexivity|vm_compute; reflexivity]]].
  - exact (plot_shows_search c3 (fun _ => true) _ _ ex_root disj_new ex_s2 u2 lab1 [E1] 1 _ ex_s3 quiet quiet ex_root_ok eq_refl ex_searched LW eq_refl eq_refl).
  - apply (picture_shows_search c3 (fun _ => true) (ex_box 0 0) (ex_box 1 1) ex_root disj_new ex_s2 u2 lab1 [E1] 1 _ ex_s3 quiet quiet 0%Q _ _ ex_root_ok eq_refl ex_searched LW eq_refl eq_refl).
    + discriminate.
    + split; intros t X F; exfalso; cbn [drawing_of p_stats p_pruned] in X; unfold with_nums in X; apply in_map_iff in X; destruct X as (y & <- & _); discriminate F.
Qed.

(** * The hypotheses are needed. *)
(** If an attempt to save was rejected before, the list of leaves still starts with the leaves of that attempt: the branches of nodes
    long explored are drawn as open, and as many of the leaves that are open are missing. *)
Definition none_solve : nat -> list bchange -> option Q := fun _ _ => None.
Definition c2 := ex_cfg false 2.
Definition st1 := after c2 ex_s0 (tree_now ex_s0 none_solve).
Definition v1 := step_nums c2 ex_s0 num_init (tree_now ex_s0 none_solve) 0.
Definition st2 := after c2 st1 (ABranch 0 (Created ex_child)).
Definition v2 := step_nums c2 st1 v1 (ABranch 0 (Created ex_child)) 1.
Definition st3 := after c2 st2 (tree_now st2 ok_solve).
Definition v3 := step_nums c2 st2 v2 (tree_now st2 ok_solve) 1.
Definition lab2 : nat -> nat := next_lab st1 (fun _ => 0) ex_root (Created ex_child) 1.
Definition drawn_leaf (from to var : nat) (up : bool) : edge := {| e_from := from; e_to := to; e_var := var; e_up := up; e_kind := Open |}.
Theorem stale_leaves_refuted :
  searched c2 (fun _ => true) ex_s0 st2 v2 lab2 [E1] 1 /\ lawful c2 (fun _ => true) st2 (tree_now st2 ok_solve) /\ step c2 st2 (tree_now st2 ok_solve) = EvStop st3 /\
  open_branches lab2 (h_tree st3) = [(1, 1, false); (1, 1, true); (0, 0, false)] /\
  (exists t, generateTreePlotString (drawing_of st3 v3 quiet quiet) = Some t /\
     t = plot_says [E1; drawn_leaf 0 2 0 false; drawn_leaf 0 3 0 true; drawn_leaf 1 4 1 false; drawn_leaf 1 5 1 true]) /\
  (exists z, tikz_build (drawing_of st3 v3 quiet quiet) 0%Q = Some z /\
     nth_error (z_ch z) 0 = Some [Some (2, 3); None; Some (1, 0); Some (3, 3)]).
Proof.
  split; [|split; [|split; [reflexivity|split; [vm_compute; reflexivity|split]]]].
  - apply (se_branch c2 (fun _ => true) ex_s0 st1 v1 (fun _ => 0) [] 0 0 (Created ex_child) ex_root 1 st2); [| |reflexivity|lia|reflexivity].
    + apply (se_other c2 (fun _ => true) ex_s0 ex_s0 num_init (fun _ => 0) [] 0 (tree_now ex_s0 none_solve) st1); [constructor| |intros; discriminate|reflexivity].
      split; [apply Permutation_refl|]. left. left. reflexivity.
    + split; [discriminate|]. split; [right; reflexivity|exact ex_decision].
  - split; [apply Permutation_refl|left; right; reflexivity].
  - eexists. split; [vm_compute; reflexivity|]. vm_compute. reflexivity.
  - eexists. split; [vm_compute; reflexivity|]. reflexivity.
Qed.
Print Assumptions stale_leaves_refuted.

(** If an integer solution was found during strong branching, its node gets the number of the first open leaf, and the variables
    drawn at the leaves are those of the leaf before (leaf 4 is the down branch of node 0 on variable 0). *)
Definition lucky (i : nat) : bool * Q := if Nat.eqb i 1 then (true, 5%Q) else (false, 0%Q).
Theorem strong_branching_refuted :
  exists z, tikz_build (drawing_of ex_s3 u3 lucky quiet) 0%Q = Some z /\
    slot_of z 1 0 = Some (2, 3) /\ slot_of z 1 1 = Some (2, 4) /\
    slot_of z 0 0 = Some (4, 3) /\ nth_error (z_var z) 4 = Some 1%Z /\ In (0, 0, false) (open_branches lab1 (h_tree ex_s3)).
Proof. eexists. split; [vm_compute; reflexivity|]. split; [reflexivity|]. split; [reflexivity|]. split; [reflexivity|]. split; [reflexivity|]. right. right. left. vm_compute. reflexivity. Qed.
Print Assumptions strong_branching_refuted.

(** The other numbers of the caption, for every drawing that is made: nodes, active nodes, integer-feasible and other pruned nodes. *)
Definition tally (z : tikz) : nat * nat := (z_feas z, z_inf z).
Lemma put_tally z ch n v o z' : put z ch n v o = Some z' -> tally z' = tally z.
Proof. unfold put. destruct (set_nth n v (z_var z)); [|discriminate]. destruct (set_nth n o (z_obj z)); [|discriminate]. intros [= <-]. reflexivity. Qed.
Lemma add_tally n z m o z' : add_sb n z m o = Some z' -> tally z' = tally z.
Proof. unfold add_sb. destruct (set_child _ _ _ _ _); [|discriminate]. intros [= <-]. reflexivity. Qed.
Lemma explored_tally d ts : forall z z', fold_left (tikz_explored d) ts z = Some z' -> exists z0, z = Some z0 /\ tally z' = tally z0.
Proof.
  induction ts as [|t ts IH]; intros z z' H; [exists z'; split; [exact H|reflexivity]|]. cbn [fold_left] in H. destruct (IH _ _ H) as (z1 & E & T). unfold tikz_explored in E. destruct z as [z|]; [|discriminate]. exists z. split; [reflexivity|].
  rewrite T. clear - E. destruct (negb _); [congruence|]. destruct (ns_parent _); [|congruence]. destruct (nth_error _ _); [|discriminate]. cbv zeta in E. destruct (set_child _ _ _ _ _); [|discriminate].
  destruct (put _ _ _ _ _) as [z2|] eqn:P; [|discriminate]. apply put_tally in P. destruct (_ && _); [apply add_tally in E; congruence|congruence].
Qed.
Lemma branch_tally q bs : forall z z', fold_left (tikz_branch q) bs z = Some z' -> exists z0, z = Some z0 /\ tally z' = tally z0.
Proof.
  induction bs as [|b bs IH]; intros z z' H; [exists z'; split; [exact H|reflexivity]|]. cbn [fold_left] in H. destruct (IH _ _ H) as (z1 & E & T). unfold tikz_branch in E. destruct z as [z|]; [|discriminate]. exists z. split; [reflexivity|].
  rewrite T. cbv zeta in E. destruct (set_child _ _ _ _ _); [|discriminate]. injection E as <-. reflexivity.
Qed.
Lemma leaf_tally d ls : forall z z', fold_left (tikz_leaf d) ls z = Some z' -> exists z0, z = Some z0 /\ tally z' = tally z0.
Proof.
  induction ls as [|l ls IH]; intros z z' H; [exists z'; split; [exact H|reflexivity]|]. cbn [fold_left] in H. destruct (IH _ _ H) as (z1 & E & T). unfold tikz_leaf in E. destruct (nth_error _ _); [|discriminate].
  destruct (branch_tally _ _ _ _ E) as (z0 & E0 & T0). exists z0. split; [exact E0|congruence].
Qed.
Definition how_many {A} (f : A -> bool) (l : list A) : nat := List.length (filter f l).
Lemma pruned_tally d ts : forall z z', fold_left (tikz_pruned d) ts z = Some z' ->
  exists z0, z = Some z0 /\ z_feas z' = z_feas z0 + how_many t_found ts /\ z_inf z' = z_inf z0 + how_many (fun t => negb (t_found t)) ts.
Proof.
  induction ts as [|t ts IH]; intros z z' H; [exists z'; unfold how_many; cbn; split; [exact H|lia]|]. cbn [fold_left] in H. destruct (IH _ _ H) as (z1 & E & T1 & T2). unfold tikz_pruned in E. destruct z as [z|]; [|discriminate]. exists z. split; [reflexivity|].
  assert (X : tally z1 = tally (bump z (t_found t))).
  { clear - E. destruct (nth_error _ _) as [[|[|] [|[|] r]]|]; try discriminate. destruct (ns_parent _); [|discriminate]. destruct (nth_error _ _); [|discriminate]. cbv zeta in E. destruct (set_child _ _ _ _ _); [|discriminate].
    destruct (put _ _ _ _ _) as [z2|] eqn:P; [|discriminate]. apply put_tally in P. assert (Y : tally (bump z2 (t_found t)) = tally (bump z (t_found t))) by (unfold tally, bump in *; cbn [z_feas z_inf]; injection P as P1 P2; rewrite P1, P2; reflexivity).
    destruct (Nat.eqb _ _); [apply add_tally in E; congruence|congruence]. }
  unfold tally, bump in X. cbn [z_feas z_inf] in X. injection X as X1 X2. rewrite T1, T2, X1, X2. unfold how_many. cbn [filter]. destruct (t_found t); cbn [negb List.length]; lia.
Qed.
Theorem caption_says d root_obj z disj_terms leaf : tikz_build d root_obj = Some z ->
  let c := caption_numbers d z disj_terms leaf in
  nth_error c 1 = Some (Z.of_nat (z_total z)) /\ nth_error c 2 = Some (Z.of_nat (List.length (p_leaves d))) /\
  nth_error c 4 = Some (Z.of_nat (how_many t_found (p_pruned d))) /\ nth_error c 5 = Some (Z.of_nat (how_many (fun t => negb (t_found t)) (p_pruned d))) /\
  (leaf <> 0%Z -> nth_error c 3 = Some leaf) /\ List.length c = 6.
Proof.
  intros H c. unfold tikz_build in H. assert (X : z_feas z = how_many t_found (p_pruned d) /\ z_inf z = how_many (fun t => negb (t_found t)) (p_pruned d)).
  { clear c. destruct (p_nodes d) as [|k]; [discriminate|]. destruct (fold_left (tikz_pruned d) _ _) as [z1|] eqn:E; [|discriminate].
    destruct (pruned_tally _ _ _ _ E) as (z2 & E2 & A & B). destruct (leaf_tally _ _ _ _ E2) as (z3 & E3 & C). destruct (explored_tally _ _ _ _ E3) as (z4 & E4 & D). injection E4 as <-. unfold tally in *. cbn [z_feas z_inf] in D.
    assert (z_feas z2 = 0 /\ z_inf z2 = 0) by (split; congruence). injection H as <-. destruct (p_leaves d); cbn [z_feas z_inf]; lia. }
  destruct X as [X Y]. unfold c, caption_numbers. cbn [nth_error List.length]. rewrite X, Y. repeat (split; [reflexivity|]). split; [|reflexivity]. intros L. apply Z.eqb_neq in L. rewrite L. reflexivity.
Qed.
Print Assumptions caption_says.

(** The caption calls minus the parameter DISJ_TERMS the number of leafs: for a disjunction of at least [c_max] terms chosen with a
    positive parameter it is negative; the tree drawn has three leaves. *)
Theorem caption_leafs_refuted :
  exists z, tikz_build (drawing_of ex_s3 u3 quiet quiet) 0%Q = Some z /\ of_kind Open [drawn_leaf 1 2 1 false; drawn_leaf 1 3 1 true; drawn_leaf 0 4 0 false] = z_total z - 2 /\
    hd_error (caption_numbers (drawing_of ex_s3 u3 quiet quiet) z 3 (h_leaf ex_s3)) = Some (-3)%Z.
Proof. eexists. split; [vm_compute; reflexivity|]. split; reflexivity. Qed.
Print Assumptions caption_leafs_refuted.

(** When no active node is left, the nodes that were solved but have no child are drawn as pruned; nothing else is altered. *)
Definition childless (ch : list (list slot)) (c : nat) : Prop := exists row, nth_error ch c = Some row /\ forall s, In s row -> s = None.
Definition cl (ch : list (list slot)) (c : nat) : bool := match nth_error ch c with Some row => forallb is_none row | None => false end.
Lemma cl_iff ch c : cl ch c = true <-> childless ch c.
Proof.
  unfold cl, childless. split.
  - destruct (nth_error ch c) as [row|]; [|discriminate]. intro H. exists row. split; [reflexivity|]. intros s X. rewrite forallb_forall in H. specialize (H s X). destruct s; [discriminate|reflexivity].
  - intros (row & E & A). rewrite E. apply forallb_forall. intros s X. rewrite (A s X). reflexivity.
Qed.
Lemma row_ext f g row : (forall c, In (Some (c, 0)) row -> f c = g c) -> dangling_row f row = dangling_row g row.
Proof.
  intro H. unfold dangling_row. apply map_ext_in. intros s X. destruct s as [[c [|k]]|]; try reflexivity. rewrite (H c X). reflexivity.
Qed.
Lemma set_nth_some {A} (a : A) : forall l k, k < List.length l -> exists l', set_nth k a l = Some l' /\ List.length l' = List.length l /\ nth_error l' k = Some a /\ forall i, i <> k -> nth_error l' i = nth_error l i.
Proof.
  induction l as [|b l IH]; intros k H; [cbn in H; lia|]. destruct k as [|k].
  - exists (a :: l). split; [reflexivity|]. split; [reflexivity|]. split; [reflexivity|]. intros [|i] N; [congruence|reflexivity].
  - destruct (IH k) as (l' & A1 & A2 & A3 & A4); [cbn in H; lia|]. exists (b :: l'). cbn [set_nth]. rewrite A1. split; [reflexivity|]. split; [cbn; lia|]. split; [exact A3|].
    intros [|i] N; [reflexivity|]. cbn. apply A4. lia.
Qed.
Definition upward (n : nat) (ch : list (list slot)) : Prop := forall i row c, nth_error ch i = Some row -> In (Some (c, 0)) row -> i < c < n.
Definition dinv (n : nat) (ch : list (list slot)) (k : nat) (acc : list (list slot) * (nat -> bool)) : Prop :=
  List.length (fst acc) = List.length ch /\
  (forall i, nth_error (fst acc) i = if (k <=? i) && (i <? n) then option_map (dangling_row (cl ch)) (nth_error ch i) else nth_error ch i) /\
  (forall j, snd acc j = (k <=? j) && (j <? n) && cl ch j).
Lemma dangling_fold n ch : n <= List.length ch -> upward n ch -> forall m k, k + m = n ->
  dinv n ch k (fold_right (fun x y => dangling_step y x) (ch, fun _ => false) (seq k m)).
Proof.
  intros L U. induction m as [|m IH]; intros k E.
  - cbn [seq fold_right]. split; [reflexivity|]. split; intro i; cbn [fst snd].
    + destruct (Nat.leb_spec k i) as [X|X]; [|reflexivity]. destruct (Nat.ltb_spec i n); [lia|reflexivity].
    + destruct (Nat.leb_spec k i) as [X|X]; [|reflexivity]. destruct (Nat.ltb_spec i n); [lia|reflexivity].
  - cbn [seq fold_right]. specialize (IH (S k) ltac:(lia)). destruct (fold_right _ _ (seq (S k) m)) as [ch1 leaf]. destruct IH as (I1 & I2 & I3). cbn [fst snd] in I1, I2, I3.
    unfold dangling_step. pose proof (I2 k) as RK. destruct (Nat.leb_spec (S k) k) as [X|_]; [lia|]. cbn [andb] in RK. rewrite RK.
    destruct (nth_error ch k) as [row|] eqn:EK; [|exfalso; apply nth_error_None in EK; lia].
    assert (RE : dangling_row leaf row = dangling_row (cl ch) row).
    { apply row_ext. intros c X. destruct (U k row c EK X) as [U1 U2]. rewrite I3. destruct (Nat.leb_spec (S k) c); [|lia]. destruct (Nat.ltb_spec c n); [reflexivity|lia]. }
    destruct (set_nth_some (dangling_row leaf row) ch1 k ltac:(lia)) as (ch2 & S1 & S2 & S3 & S4). rewrite S1.
    split; [cbn [fst]; lia|]. split; cbn [fst snd].
    + intro i. destruct (Nat.eq_dec i k) as [EI|NI].
      * subst i. rewrite S3, EK, RE. destruct (Nat.leb_spec k k); [|lia]. destruct (Nat.ltb_spec k n); [reflexivity|lia].
      * rewrite (S4 i NI), I2. destruct (Nat.leb_spec (S k) i), (Nat.leb_spec k i); try lia; reflexivity.
    + intro j. assert (CK : cl ch k = forallb is_none row) by (unfold cl; rewrite EK; reflexivity).
      destruct (forallb is_none row) eqn:F.
      * destruct (Nat.eqb_spec j k) as [EJ|NJ].
        -- subst j. rewrite CK. destruct (Nat.leb_spec k k); [|lia]. destruct (Nat.ltb_spec k n); [reflexivity|lia].
        -- rewrite I3. destruct (Nat.leb_spec (S k) j), (Nat.leb_spec k j); try lia; reflexivity.
      * rewrite I3. destruct (Nat.eq_dec j k) as [EJ|NJ].
        -- subst j. rewrite CK, !andb_false_r. reflexivity.
        -- destruct (Nat.leb_spec (S k) j), (Nat.leb_spec k j); try lia; reflexivity.
Qed.
Theorem finished_search_marked n ch : n <= List.length ch -> upward n ch ->
  forall i row, nth_error ch i = Some row -> exists row', nth_error (dangling n ch) i = Some row' /\ List.length row' = List.length row /\
  forall j s, nth_error row j = Some s ->
    (forall c, s = Some (c, 0) -> childless ch c -> nth_error row' j = Some (Some (c, 2))) /\
    ((forall c, s = Some (c, 0) -> ~ childless ch c) -> nth_error row' j = Some s).
Proof.
  intros L U i row E. pose proof (dangling_fold n ch L U n 0 eq_refl) as (_ & D & _). unfold dangling. rewrite <- (rev_involutive (seq 0 n)) in D.
  rewrite fold_left_rev_right in D. specialize (D i). rewrite E in D. cbn [Nat.leb andb option_map] in D.
  destruct (Nat.ltb_spec i n) as [LT|GE].
  - exists (dangling_row (cl ch) row). split; [exact D|]. split; [apply map_length|]. intros j s X. unfold dangling_row. rewrite (map_nth_error _ _ _ X). split.
    + intros c -> C. apply cl_iff in C. rewrite C. reflexivity.
    + intro H. destruct s as [[c [|k]]|]; try reflexivity. destruct (cl ch c) eqn:C; [|reflexivity]. exfalso. apply (H c eq_refl). apply cl_iff. exact C.
  - exists row. split; [exact D|]. split; [reflexivity|]. intros j s X. split; [|intros _; exact X]. intros c -> _. apply nth_error_In in X. destruct (U i row c E X). lia.
Qed.
Print Assumptions finished_search_marked.

Definition fin : drawing := {| p_stats := p_stats (drawing_of ex_s3 u3 quiet quiet); p_pruned := []; p_nodes := p_nodes (drawing_of ex_s3 u3 quiet quiet); p_leaves := [] |}.
Example finished_example :
  (exists z, tikz_build fin 0%Q = Some z /\ slot_of z 0 2 = Some (1, 2)) /\
  (exists z, tikz_build {| p_stats := p_stats fin; p_pruned := []; p_nodes := p_nodes fin; p_leaves := [0] |} 0%Q = Some z /\ slot_of z 0 2 = Some (1, 0)) /\
  upward 3 [[Some (1, 0); None; Some (2, 0)]; [None; Some (3, 4); None]; [None; None; None]; [None; None; None]] /\
  dangling 3 [[Some (1, 0); None; Some (2, 0)]; [None; Some (3, 4); None]; [None; None; None]; [None; None; None]] =
    [[Some (1, 0); None; Some (2, 2)]; [None; Some (3, 4); None]; [None; None; None]; [None; None; None]].
Proof.

  split; [eexists; split; vm_compute; reflexivity|]. split; [eexists; split; vm_compute; reflexivity|]. split; [|reflexivity].
  intros i row c E H. do 4 (destruct i as [|i]; [injection E as <-; cbn in H; repeat (destruct H as [H|H]; [try discriminate H; injection H as <-; lia|]); destruct H|]). destruct i; discriminate.
Qed.
