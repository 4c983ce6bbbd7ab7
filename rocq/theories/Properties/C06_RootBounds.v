(** C06, continued: the two bounds kept with a saved disjunction (root.boundD, root.boundU) are the best objectives of the terms on the two
    sides of the first branching. *)
From Verif Require Import Prelude Model.Tolerance Model.LP Model.Disjunction Model.EventHandler Spec.LPSpec Spec.DisjSpec Spec.TreeSpec
  Proofs.ToleranceP Proofs.EventHandlerP Properties.C06_tree_coverage.
#[local] Open Scope Q_scope.

(** Following parents from node [id] ends at a child of the root: the first one (node 0) is on the side its own direction tells, the other
    one on the opposite side. *)
Inductive on_root_side (stats : list nodestat) : nat -> bool -> Prop :=
| side_first s : nth_error stats 0 = Some s -> ns_parent s = None -> on_root_side stats 0 (ns_way s <=? 0)%Z
| side_second id s r : id <> 0%nat -> nth_error stats id = Some s -> ns_parent s = None -> nth_error stats 0 = Some r ->
    on_root_side stats id (negb (ns_way r <=? 0)%Z)
| side_up id s p d : nth_error stats id = Some s -> ns_parent s = Some p -> on_root_side stats p d -> on_root_side stats id d.
(** [b] is one of the values and within 1e-7 below all of them; it is missing exactly when there are no values. *)
Definition best_of (b : option Q) (R : Q -> Prop) : Prop :=
  match b with None => forall v, ~ R v | Some q => R q /\ forall v, R v -> q < v + EPS7 end.
(** The term stored for a branch of node [id], with objective [v]. *)
Definition term_from (stats : list nodestat) (t : termdata) (p : nat * Q) : Prop :=
  td_obj t = Some (snd p) /\ exists o c, nth_error stats (fst p) = Some o /\ td_changes t = (if Nat.eqb (fst p) 0 then [] else ns_changes o) ++ [c].
(** The objectives of one side. *)
Definition values (stats : list nodestat) (L : list (nat * Q)) (down : bool) (v : Q) : Prop := exists id, In (id, v) L /\ on_root_side stats id down.
(** The bounds of a list of terms. *)
Definition bounds_of (stats : list nodestat) (ts : list termdata) (down up : option Q) : Prop :=
  exists L, Forall2 (term_from stats) ts L /\ (forall id v, In (id, v) L -> on_root_side stats id true \/ on_root_side stats id false) /\
  best_of down (values stats L true) /\ best_of up (values stats L false).

Lemma side_sound stats : forall f id d, root_side stats f id = Some d -> on_root_side stats id d.
Proof.
  induction f as [|f IH]; intros id d H; [discriminate|]. cbn [root_side] in H. destruct (nth_error stats id) as [s|] eqn:S; [|discriminate].
  destruct (ns_parent s) as [p|] eqn:P; [exact (side_up _ _ _ _ _ S P (IH _ _ H))|].
  destruct (nth_error stats 0) as [r|] eqn:R; [|discriminate]. destruct (Nat.eqb_spec id 0) as [E|N]; injection H as <-.
  - subst id. rewrite S in R. injection R as <-. exact (side_first _ _ S P).
  - exact (side_second _ _ _ _ N S P R).
Qed.
Lemma side_unique stats id d : on_root_side stats id d -> forall e, on_root_side stats id e -> d = e.
Proof.
  induction 1 as [s S P|id s r N S P R|id s p d S P H IH]; intros e E; inversion E; subst; try congruence.
  apply IH. replace p with p0 by congruence. assumption.
Qed.
Lemma best_add b R v : best_of b R -> best_of (lower_bound_to b v) (fun w => R w \/ w = v).
Proof.
  assert (E : 0 < EPS7) by reflexivity. unfold best_of, lower_bound_to. destruct b as [q|].
  - intros [H1 H2]. destruct (lessThanVal v q EPS7) eqn:X.
    + apply lessThanVal_iff in X. split; [right; reflexivity|]. intros w [W|W]; [specialize (H2 w W); lra|subst w; lra].
    + assert (Y : q < v + EPS7) by (apply Qnot_le_lt; intro Z; assert (A : lessThanVal v q EPS7 = true) by (apply lessThanVal_iff; lra); congruence).
      split; [left; exact H1|]. intros w [W|W]; [exact (H2 w W)|subst w; exact Y].
  - intro H. split; [right; reflexivity|]. intros w [W|W]; [destruct (H w W)|subst w; lra].
Qed.
Lemma best_ext b R S : (forall v, R v <-> S v) -> best_of b R -> best_of b S.
Proof.
  intro H. destruct b as [q|]; cbn; [intros [A B]; split; [apply H, A|intros v V; apply B, H, V]|]. intros A v V. exact (A v (proj2 (H v) V)).
Qed.
Lemma forall2_snoc {A B} (R : A -> B -> Prop) l m a b : Forall2 R l m -> R a b -> Forall2 R (l ++ [a]) (m ++ [b]).
Proof. intros H X. apply Forall2_app; [exact H|]. constructor; [exact X|constructor]. Qed.

Definition acc_ok (stats : list nodestat) (a : sacc) : Prop := bounds_of stats (sa_terms a) (sa_down a) (sa_up a).
Lemma acc_term keep stats orig var way bval ans a a' : acc_ok stats a -> setup_term keep stats orig var way bval ans a = Some a' -> acc_ok stats a'.
Proof.
  intros (L & F & SD & BD & BU) H. unfold setup_term in H. destruct (nth_error stats orig) as [o|] eqn:O; [|discriminate].
  destruct (match ans with Some _ => true | None => keep end); [|injection H as <-; exists L; cbn [sa_terms sa_down sa_up]; auto].
  destruct (root_side _ _ _) as [d|] eqn:D; [|discriminate]. apply side_sound in D. set (v := match ans with Some q => q | None => ns_obj o end) in *.
  injection H as <-. exists (L ++ [(orig, v)]). cbn [sa_terms sa_down sa_up].
  assert (VA : forall e w, values stats (L ++ [(orig, v)]) e w <-> values stats L e w \/ (w = v /\ e = d)).
  { intros e w. unfold values. split.
    - intros (id & I & S). apply in_app_or in I. destruct I as [I|[I|[]]]; [left; exists id; split; assumption|]. injection I as <- <-. right. split; [reflexivity|exact (side_unique _ _ _ S _ D)].
    - intros [(id & I & S)|[-> ->]]; [exists id; split; [apply in_or_app; left; exact I|exact S]|exists orig; split; [apply in_or_app; right; left; reflexivity|exact D]]. }
  split.
  { apply forall2_snoc; [exact F|]. split; [reflexivity|]. cbn [fst td_changes]. exists o. eexists. split; [exact O|]. unfold term_changes. reflexivity. }
  split.
  { intros id w I. apply in_app_or in I. destruct I as [I|[I|[]]]; [exact (SD id w I)|]. injection I as <- _. destruct d; [left|right]; exact D. }
  destruct d; split.
  - refine (best_ext _ _ _ _ (best_add _ _ v BD)). intro w. rewrite VA. intuition.
  - refine (best_ext _ _ _ _ BU). intro w. rewrite VA. split; [intro X; left; exact X|intros [X|[_ X]]; [exact X|discriminate]].
  - refine (best_ext _ _ _ _ BD). intro w. rewrite VA. split; [intro X; left; exact X|intros [X|[_ X]]; [exact X|discriminate]].
  - refine (best_ext _ _ _ _ (best_add _ _ v BU)). intro w. rewrite VA. intuition.
Qed.
Lemma acc_node cfg stats timeup pok solve len nd status a a' s' : acc_ok stats a -> save_node cfg stats timeup pok solve len nd status a = Some (a', s') -> acc_ok stats a'.
Proof.
  intros A H. unfold save_node in H. destruct (nth_error stats (cn_num nd)) as [s0|]; [|discriminate]. destruct (nth_error stats (ns_id s0)) as [s|]; [|discriminate].
  destruct (nth_error stats (ns_orig s)) as [o|]; [|discriminate]. destruct (negb pok); [discriminate|]. cbv zeta in H.
  destruct (setup_term _ _ _ _ _ _ _ a) as [a1|] eqn:E1; [|discriminate]. pose proof (acc_term _ _ _ _ _ _ _ _ _ A E1) as A1.
  destruct (negb _ && _) in H.
  - destruct (setup_term _ _ _ _ _ _ _ a1) as [a2|] eqn:E2; [|discriminate]. injection H as <- <-. exact (acc_term _ _ _ _ _ _ _ _ _ A1 E2).
  - injection H as <- <-. exact A1.
Qed.
Lemma acc_loop cfg stats timeup pok solve : forall nodes i status a a' s', acc_ok stats a -> save_loop cfg stats timeup pok solve i nodes status a = Some (a', s') -> acc_ok stats a'.
Proof.
  induction nodes as [|nd r IH]; intros i status a a' s' A H; cbn [save_loop] in H; [injection H as <- <-; exact A|].
  destruct (negb timeup && _) in H; [injection H as <- <-; exact A|]. destruct (save_node _ _ _ _ _ _ _ _ _) as [[a1 s1]|] eqn:E in H; [|discriminate].
  exact (IH _ _ _ _ _ (acc_node _ _ _ _ _ _ _ _ _ _ _ A E) H).
Qed.
Lemma acc_fs cfg stats pok solve : forall nodes i a a', acc_ok stats a -> savefs_loop cfg stats pok solve i nodes a = Some a' -> acc_ok stats a'.
Proof.
  induction nodes as [|nd r IH]; intros i a a' A H; cbn [savefs_loop] in H; [injection H as <-; exact A|].
  destruct (savefs_node _ _ _ _ _ _) as [a1|] eqn:E in H; [|discriminate]. refine (IH _ _ _ _ H). clear - A E. unfold savefs_node in E.
  destruct (nth_error stats (cn_num nd)) as [s0|]; [|discriminate]. destruct (nth_error stats (ns_id s0)) as [s|]; [|discriminate].
  destruct (nth_error stats (ns_orig s)) as [o|]; [|discriminate]. destruct (negb _); [discriminate|]. cbv zeta in E.
  destruct (Nat.eqb _ _); [|exact (acc_term _ _ _ _ _ _ _ _ _ A E)].
  destruct (setup_term _ _ _ _ _ _ _ a) as [a2|] eqn:E2 in E; [|discriminate]. exact (acc_term _ _ _ _ _ _ _ _ _ (acc_term _ _ _ _ _ _ _ _ _ A E2) E).
Qed.
Lemma acc_pruned cfg stats : forall pr a a', acc_ok stats a -> savefs_pruned cfg stats pr a = Some a' -> acc_ok stats a'.
Proof.
  induction pr as [|p r IH]; intros a a' A H; cbn [savefs_pruned] in H; [injection H as <-; exact A|].
  destruct (ns_parent p) as [id|]; [|discriminate]. destruct (nth_error stats id) as [s|]; [|discriminate].
  destruct (setup_term _ _ _ _ _ _ _ a) as [a1|] eqn:E in H; [|discriminate]. exact (IH _ _ (acc_term _ _ _ _ _ _ _ _ _ A E) H).
Qed.
Lemma acc_start stats num leaf : acc_ok stats {| sa_terms := []; sa_num := num; sa_leaf := leaf; sa_down := None; sa_up := None |}.
Proof. exists []. split; [constructor|]. split; [intros ? ? []|]. split; intros v (? & [] & _). Qed.

(** Both ways of saving: every term lies on one side of the first branching, and the bound of each side is, within 1e-7, the least
    objective of its terms. *)
Theorem root_bounds_saved : forall cfg st timeup pok solve,
  (forall st' stop, saveInformation cfg st timeup pok solve = Some (st', stop) -> bounds_of (h_stats st) (d_terms (h_disj st')) (h_down st') (h_upb st')) /\
  (forall st', saveInformationFromStats cfg st pok solve = Some st' -> bounds_of (h_stats st) (d_terms (h_disj st')) (h_down st') (h_upb st')).
Proof.
  intros cfg st timeup pok solve. split.
  - intros st' stop H. unfold saveInformation in H. cbv zeta in H. destruct (save_loop _ _ _ _ _ _ _ _ _) as [[a s]|] eqn:E; [|discriminate].
    injection H as <- _. exact (acc_loop _ _ _ _ _ _ _ _ _ _ _ (acc_start _ _ _) E).
  - intros st' H. unfold saveInformationFromStats in H. cbv zeta in H. destruct (savefs_loop _ _ _ _ _ _ _) as [a|] eqn:E; [|discriminate].
    destruct (savefs_pruned _ _ _ a) as [a'|] eqn:E2; [|discriminate]. injection H as <-. exact (acc_pruned _ _ _ _ _ (acc_fs _ _ _ _ _ _ _ _ (acc_start _ _ _) E) E2).
Qed.
Print Assumptions root_bounds_saved.
(** Each term is on one side only. *)
Theorem root_side_unique : forall stats id d e, on_root_side stats id d -> on_root_side stats id e -> d = e.
Proof. intros stats id d e H. exact (side_unique stats id d H e). Qed.
Print Assumptions root_side_unique.



(** REFUTED: a term on the down side of the first branching counts for boundD. When the second branch of the root is still unexplored, its
    term is recorded from node 0 and counted on the side of the first branch; boundD then stays infinite. *)
Definition root_down : bchange := {| bc_var := 0; bc_bound := 1; bc_val := 0 |}.
Theorem second_branch_side_refuted : exists cfg ints root h st a st' s t,
  root_ok (c_n cfg) ints root /\ history cfg (lawful cfg ints) (h_init (cn_lo root) (cn_hi root) root disj_new) h st /\
  lawful cfg ints st a /\ step cfg st a = EvStop st' /\
  nth_error (h_stats st) 0 = Some s /\ ns_var s = 0%nat /\ ns_way s = 1%Z /\ ns_bval s = 1 /\
  In t (d_terms (h_disj st')) /\ td_changes t = [root_down] /\ td_obj t = Some 0 /\ h_down st' = None /\ h_upb st' = Some 0.
Proof.
  destruct tree_covers_example as (H & L & S & C & _).
  assert (T : exists t, nth_error (d_terms (h_disj ex_s3)) 2 = Some t /\ td_changes t = [root_down] /\ td_obj t = Some 0).
  { destruct (nth_error (d_terms (h_disj ex_s3)) 2) as [t|] eqn:T; [|apply (f_equal (@List.length _)) in C; apply nth_error_None in T; rewrite map_length in C; cbn [List.length] in C; lia].
    exists t. split; [reflexivity|]. split.
    - pose proof (map_nth_error td_changes _ _ T) as X. rewrite C in X. injection X as X. symmetry. exact X.
    - pose proof (map_nth_error td_obj _ _ T) as X. assert (O : nth_error (map td_obj (d_terms (h_disj ex_s3))) 2 = Some (Some 0)) by (vm_compute; reflexivity). rewrite O in X. injection X as X. symmetry. exact X. }
  destruct T as (t & T1 & T2 & T3). destruct (nth_error (h_stats ex_s2) 0) as [s|] eqn:S0; [|discriminate S0].
  assert (P : option_map (fun s => (ns_var s, ns_way s, ns_bval s)) (nth_error (h_stats ex_s2) 0) = Some (0%nat, 1%Z, 1)) by (vm_compute; reflexivity).
  rewrite S0 in P. cbn [option_map] in P. injection P as P1 P2 P3.
  exists (ex_cfg false 3), (fun _ => true), ex_root, [(ex_s0, tree_now ex_s0 ok_solve); (ex_s1, ABranch 0 (Created ex_child))], ex_s2, (tree_now ex_s2 ok_solve), ex_s3, s, t.
  split; [exact ex_root_ok|]. split; [exact H|]. split; [exact L|]. split; [exact S|]. split; [exact S0|]. split; [exact P1|]. split; [exact P2|]. split; [exact P3|].
  split; [exact (nth_error_In _ _ T1)|]. split; [exact T2|]. split; [exact T3|]. split; vm_compute; reflexivity.
Qed.
Print Assumptions second_branch_side_refuted.
(** Saving the state of that run by either function, with objectives 1 and 2 apart. *)
Definition rb_solve (i : nat) (cs : list bchange) : option Q := Some (inject_Z (Z.of_nat (i + List.length cs))).
Definition seen (o : option hst) : option (list (option Q) * option Q * option Q) := option_map (fun s => (map td_obj (d_terms (h_disj s)), h_down s, h_upb s)) o.
Example root_bounds_example :
  seen (option_map fst (saveInformation (ex_cfg false 3) ex_s2 true (fun _ => true) rb_solve)) = Some ([Some 2; Some 2; Some 2], None, Some 2) /\
  seen (saveInformationFromStats (ex_cfg false 3) ex_s2 (fun _ => true) (fun _ cs => Some (match cs with [_] => 5 | c :: _ => inject_Z (Z.of_nat (bc_var c) + 7) | [] => 0 end))) = Some ([Some 7; Some 7; Some 5], None, Some 5).
Proof. split; vm_compute; reflexivity. Qed.
