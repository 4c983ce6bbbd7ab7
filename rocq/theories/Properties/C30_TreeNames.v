(** C30, continued: the description of a whole partial branch-and-bound disjunction, with and without a saved integer solution. *)
From Verif Require Import Prelude Model.TextUtil Model.Names Spec.TextSpec Spec.NameSpec.

(** The description after the calls of one save: first the integer solution, if one was found, then term by term (variable, direction and
    value of the branching, bounds changed above it). *)
Definition saved_name (solution : bool) (terms : list (Z * Z * Q * list (Z * Z * Q))) : option text :=
  fold_left (fun o t => match o with None => None | Some n => let '(var, way, value, parents) := t in tree_setCgsName n var way value parents end)
    terms (Some (if solution then feasible_setCgsName [] else [])).
Lemma opening_pre P n a : n <> [] -> opening (P ++ n) a = P ++ opening n a.
Proof.
  intro N. unfold opening. destruct n as [|c n]; [congruence|]. clear N. destruct (P ++ c :: n) as [|x y] eqn:E; [destruct P; discriminate|]. rewrite <- E. clear x y E.
  destruct a; [rewrite removelast_app by discriminate|]; rewrite <- !app_assoc; reflexivity.
Qed.
Lemma ineq_pre P n i a : n <> [] -> setCgsName_ineq (P ++ n) i a = option_map (fun t => P ++ t) (setCgsName_ineq n i a).
Proof.
  intro N. unfold setCgsName_ineq. destruct (iq_co i); [reflexivity|]. destruct (coefs_text _); [|reflexivity]. destruct (number_text _); [|reflexivity].
  cbn [option_map]. rewrite (opening_pre P n a N), <- app_assoc. reflexivity.
Qed.
Lemma ineq_ne n i a t : n <> [] -> setCgsName_ineq n i a = Some t -> t <> [].
Proof.
  intros N. unfold setCgsName_ineq. destruct (iq_co i); [congruence|]. destruct (coefs_text _); [|discriminate]. destruct (number_text _); [|discriminate].
  intro H. injection H as <-. intro E. apply app_eq_nil in E. destruct E as [_ E]. apply app_eq_nil in E. destruct E as [_ E]. discriminate E.
Qed.
Lemma ineq_ne2 n i t : iq_co i <> [] -> setCgsName_ineq n i false = Some t -> t <> [].
Proof.
  intros N. unfold setCgsName_ineq. destruct (iq_co i); [congruence|]. destruct (coefs_text _); [|discriminate]. destruct (number_text _); [|discriminate].
  intro H. injection H as <-. intro E. apply app_eq_nil in E. destruct E as [_ E]. apply app_eq_nil in E. destruct E as [_ E]. discriminate E.
Qed.
Lemma loop_pre P : forall l n f, n <> [] -> ineq_loop (P ++ n) f l = option_map (fun t => P ++ t) (ineq_loop n f l).
Proof.
  induction l as [|i l IH]; intros n f N; cbn [ineq_loop]; [reflexivity|]. rewrite (ineq_pre P n i _ N).
  destruct (setCgsName_ineq n i (negb f)) as [t|] eqn:E; cbn [option_map]; [|reflexivity]. apply IH. exact (ineq_ne _ _ _ _ N E).
Qed.
Lemma opening_ne n : n <> [] -> opening n true <> [].
Proof. intros N E. unfold opening in E. destruct n; [congruence|]. apply app_eq_nil in E. destruct E as [E _]. apply app_eq_nil in E. destruct E as [_ E]. discriminate E. Qed.
Lemma tree_pre P n var way value parents : P <> [] ->
  tree_setCgsName (P ++ n) var way value parents =
  option_map (fun t => match n with [] => P ++ txt " V " ++ t | _ => P ++ t end) (tree_setCgsName n var way value parents) /\
  (forall t, tree_setCgsName n var way value parents = Some t -> t <> []).
Proof.
  intro NP.
  assert (K : forall m, m <> [] -> setCgsName_ineqs m (map change_ineq parents) true <> Some [] /\
    setCgsName_ineqs (P ++ m) (map change_ineq parents) true = option_map (fun t => P ++ t) (setCgsName_ineqs m (map change_ineq parents) true) /\
    setCgsName_ineqs ((P ++ txt " V ") ++ m) (map change_ineq parents) true = option_map (fun t => (P ++ txt " V ") ++ t) (setCgsName_ineqs m (map change_ineq parents) true)).
  { intros m M. unfold setCgsName_ineqs. destruct (map change_ineq parents) as [|i l]; [split; [congruence|split; reflexivity]|].
    rewrite (opening_pre P m true M), (opening_pre (P ++ txt " V ") m true M), (loop_pre P _ _ _ (opening_ne m M)), (loop_pre (P ++ txt " V ") _ _ _ (opening_ne m M)).
    destruct (ineq_loop (opening m true) true (i :: l)) as [t|]; cbn [option_map]; [|split; [congruence|split; reflexivity]].
    rewrite <- !app_assoc. split; [|split; reflexivity]. intro E. injection E as E. apply app_eq_nil in E. destruct E as [_ E]. discriminate E. }
  assert (B : iq_co (branch_ineq var way value) <> []) by discriminate. unfold tree_setCgsName.
  destruct (setCgsName_ineq n (branch_ineq var way value) false) as [t|] eqn:E.
  - pose proof (ineq_ne2 _ _ _ B E) as NT. destruct (K t NT) as (K0 & K1 & K2). split; [|intros u U V; rewrite V in U; exact (K0 U)].
    destruct n as [|c n].
    + assert (X : setCgsName_ineq (P ++ []) (branch_ineq var way value) false = Some ((P ++ txt " V ") ++ t)).
      { rewrite app_nil_r. unfold setCgsName_ineq in E |- *. destruct (iq_co _); [congruence|]. destruct (coefs_text _); [|discriminate]. destruct (number_text _); [|discriminate].
        injection E as <-. unfold opening. destruct P as [|q1 P1]; [congruence|]. f_equal. rewrite <- !app_assoc. reflexivity. }
      rewrite X, K2. destruct (setCgsName_ineqs t _ true); cbn [option_map]; [rewrite <- app_assoc|]; reflexivity.
    + rewrite (ineq_pre P (c :: n)), E by discriminate. cbn [option_map]. exact K1.
  - split; [|discriminate]. destruct n as [|c n].
    + rewrite app_nil_r. unfold setCgsName_ineq in E |- *. destruct (iq_co _); [congruence|]. destruct (coefs_text _); [|reflexivity]. destruct (number_text _); [discriminate|reflexivity].
    + rewrite (ineq_pre P (c :: n)), E by discriminate. reflexivity.
Qed.

(** The saved integer solution is described by "(feasSol0)" in front of the terms of the tree; nothing else changes. *)
Theorem solution_described : forall terms,
  saved_name true [] = Some (txt "(feasSol0)") /\
  (terms <> [] -> saved_name true terms = option_map (fun t => txt "(feasSol0) V " ++ t) (saved_name false terms)).
Proof.
  intro terms. split; [reflexivity|]. unfold saved_name. set (P := txt "(feasSol0)"). change (feasible_setCgsName []) with P. assert (NP : P <> []) by discriminate.
  set (step := fun (o : option text) (t : Z * Z * Q * list (Z * Z * Q)) => match o with None => None | Some n => let '(var, way, value, parents) := t in tree_setCgsName n var way value parents end).
  assert (N : forall l, fold_left step l None = None) by (induction l as [|x l IH]; [reflexivity|exact IH]).
  assert (G : forall l n, n <> [] -> fold_left step l (Some ((P ++ txt " V ") ++ n)) = option_map (fun t => (P ++ txt " V ") ++ t) (fold_left step l (Some n))).
  { induction l as [|[[[var way] value] parents] l IH]; intros n NN; [reflexivity|]. change (fold_left step l (tree_setCgsName ((P ++ txt " V ") ++ n) var way value parents) = option_map (fun t => (P ++ txt " V ") ++ t) (fold_left step l (tree_setCgsName n var way value parents))).
    destruct (tree_pre (P ++ txt " V ") n var way value parents ltac:(discriminate)) as [-> NE]. destruct (tree_setCgsName n var way value parents) as [t|] eqn:E; cbn [option_map].
    - destruct n; [congruence|]. apply IH, NE. reflexivity.
    - rewrite !N. reflexivity. }
  intro NT. destruct terms as [|[[[var way] value] parents] l]; [congruence|]. change (fold_left step l (tree_setCgsName P var way value parents) = option_map (fun t => txt "(feasSol0) V " ++ t) (fold_left step l (tree_setCgsName [] var way value parents))). replace (tree_setCgsName P var way value parents) with (tree_setCgsName (P ++ []) var way value parents) by (rewrite app_nil_r; reflexivity).
  destruct (tree_pre P [] var way value parents NP) as [-> NE]. destruct (tree_setCgsName [] var way value parents) as [t|] eqn:E; cbn [option_map].
  - rewrite app_assoc. rewrite G by (apply NE; reflexivity). reflexivity.
  - rewrite !N. reflexivity.
Qed.
Print Assumptions solution_described.
Example solution_described_example :
  saved_name true [(7, 0, inject_Z 3, []); (7, 1, inject_Z 4, [])]%Z = Some (txt "(feasSol0) V (-x7 >= -3) V (+x7 >= 4)").
Proof. vm_compute. reflexivity. Qed.
