(** C28: the search stops only after a disjunction of the promised size has been written, with consistent
    counters. *)
From Verif Require Import Prelude Model.Tolerance Model.LP Model.Disjunction Model.EventHandler
  Spec.LPSpec Spec.DisjSpec Spec.TreeSpec Proofs.EventHandlerP Properties.C06_tree_coverage.
From Coq Require Import Permutation.

(** Number of branches of the tree still to be explored. *)
Definition open_branches (st : hst) : Z := fold_right Z.add 0%Z (map (fun nd => Z.of_nat (cn_left nd)) (h_tree st)).

Lemma sum_perm (l l' : list cnode) : Permutation l l' ->
  fold_right Z.add 0%Z (map (fun nd => Z.of_nat (cn_left nd)) l) = fold_right Z.add 0%Z (map (fun nd => Z.of_nat (cn_left nd)) l').
Proof. induction 1; cbn [map fold_right]; lia. Qed.

(** Default mode.  The search is stopped only by a treeStatus event; then the disjunction has one term per
    recorded branch plus one for a saved integer solution, no more terms than open branches (plus the solution),
    and more than half of the requested number unless time is up. *)
Theorem stop_size cfg ints lo0 up0 root d h st a st' :
  c_keep cfg = false -> root_ok (c_n cfg) ints root -> (0 < c_max cfg)%Z ->
  history cfg (lawful cfg ints) (h_init lo0 up0 root d) h st -> lawful cfg ints st a -> step cfg st a = EvStop st' ->
  exists ord timeup pok solve slo sup, a = ATree ord timeup pok solve slo sup /\
  let num := Z.of_nat (d_num_terms (h_disj st')) in
  let isol := match h_isol st with Some _ => 1%Z | None => 0%Z end in
  h_end st' = true /\ num = (Z.of_nat (length (d_terms (h_disj st'))) + isol)%Z /\ h_leaf st' = num /\
  d_isol (h_disj st') = h_isol st /\ (num <= open_branches st + isol)%Z /\ (timeup = true \/ (c_max cfg < 2 * num)%Z).
Proof.
  intros K RO MX H L ST.
  assert (R : run cfg (allowed cfg ints (fun _ => False)) (h_init lo0 up0 root d) st).
  { apply (history_run cfg ints _ h); [exact H|]. intros y []. }
  assert (AL : allowed cfg ints (fun _ => False) st a) by (apply lawful_allowed; [exact L|intros y []]).
  destruct (stop_spec cfg ints (fun _ => False) lo0 up0 root (fun y G => match G with end) RO (fun y G => match G with end) MX d st a st' R AL ST)
    as (ord & timeup & pok & solve & slo & sup & A & PM & E & LF & CL & _ & _ & _ & _ & D & _ & _).
  exists ord, timeup, pok, solve, slo, sup. split; [exact A|]. cbv zeta. destruct (D K) as (D1 & D2 & D3).
  split; [exact E|]. split; [exact D2|]. split; [exact LF|]. split; [exact D1|]. split; [|exact D3].
  unfold count_leaves in CL. rewrite K in CL. unfold isol_count in CL. cbn [h_isol h_tree set_tree] in CL.
  unfold open_branches. rewrite (sum_perm _ _ PM). lia.
Qed.
Print Assumptions stop_size.

(** When pruned nodes are kept: one term per pruned node and open branch at most, and the requested number unless
    time is up. *)
Theorem stop_size_kept cfg ints lo0 up0 root d h st a st' :
  c_keep cfg = true -> root_ok (c_n cfg) ints root -> (0 < c_max cfg)%Z ->
  history cfg (lawful cfg ints) (h_init lo0 up0 root d) h st -> lawful cfg ints st a -> step cfg st a = EvStop st' ->
  exists ord timeup pok solve slo sup, a = ATree ord timeup pok solve slo sup /\
  let num := Z.of_nat (d_num_terms (h_disj st')) in
  h_end st' = true /\ num = Z.of_nat (length (d_terms (h_disj st'))) /\ h_leaf st' = num /\
  (num <= open_branches st + Z.of_nat (length (h_pruned st)))%Z /\ (timeup = true \/ (c_max cfg <= num)%Z).
Proof.
  intros K RO MX H L ST.
  assert (R : run cfg (allowed cfg ints (fun _ => False)) (h_init lo0 up0 root d) st).
  { apply (history_run cfg ints _ h); [exact H|]. intros y []. }
  assert (AL : allowed cfg ints (fun _ => False) st a) by (apply lawful_allowed; [exact L|intros y []]).
  destruct (stop_spec cfg ints (fun _ => False) lo0 up0 root (fun y G => match G with end) RO (fun y G => match G with end) MX d st a st' R AL ST)
    as (ord & timeup & pok & solve & slo & sup & A & PM & E & LF & CL & _ & _ & _ & _ & _ & D & _).
  exists ord, timeup, pok, solve, slo, sup. split; [exact A|]. cbv zeta. destruct (D K) as (D1 & D2).
  split; [exact E|]. split; [rewrite D1; reflexivity|]. split; [exact LF|]. split; [|exact D2].
  unfold count_leaves in CL. rewrite K in CL. cbn [h_pruned h_tree set_tree] in CL.
  unfold open_branches. rewrite (sum_perm _ _ PM). lia.
Qed.
Print Assumptions stop_size_kept.

(** Between two events the search is never at its limit without a written disjunction: the leaf count stays below
    the maximum and the end is not announced. *)
Theorem search_goes_on cfg ints lo0 up0 root d h st :
  root_ok (c_n cfg) ints root -> (0 < c_max cfg)%Z ->
  history cfg (lawful cfg ints) (h_init lo0 up0 root d) h st -> h_end st = false /\ (h_leaf st < c_max cfg)%Z.
Proof.
  intros RO MX H.
  assert (R : run cfg (allowed cfg ints (fun _ => False)) (h_init lo0 up0 root d) st).
  { apply (history_run cfg ints _ h); [exact H|]. intros y []. }
  exact (proj2 (run_inv cfg ints (fun _ => False) lo0 up0 root (fun y G => match G with end) RO (fun y G => match G with end) MX d st R)).
Qed.
Print Assumptions search_goes_on.

(** Preparing the disjunction after such a stop never ends the program because counters disagree; it succeeds
    as soon as two terms were saved. *)
Theorem prepare_after_stop cfg ints lo0 up0 root d h st a st' disj_terms optimal :
  root_ok (c_n cfg) ints root -> (0 < c_max cfg)%Z ->
  history cfg (lawful cfg ints) (h_init lo0 up0 root d) h st -> lawful cfg ints st a -> step cfg st a = EvStop st' ->
  let r := pbb_exit (c_keep cfg) disj_terms false optimal (Z.of_nat (d_num_terms (h_disj st'))) (h_leaf st')
             (length (d_terms (h_disj st'))) (match h_isol st with Some _ => true | None => false end) in
  r <> PMismatch /\ r <> PUnknown /\ ((2 <= disj_terms)%Z -> (2 <= d_num_terms (h_disj st'))%nat -> r = PSuccess).
Proof.
  intros RO MX H L ST. cbv zeta.
  assert (LF : h_leaf st' = Z.of_nat (d_num_terms (h_disj st')) /\
     (c_keep cfg = false -> Z.of_nat (d_num_terms (h_disj st')) = (Z.of_nat (length (d_terms (h_disj st'))) + match h_isol st with Some _ => 1 | None => 0 end)%Z)).
  { destruct (c_keep cfg) eqn:K.
    - destruct (stop_size_kept _ _ _ _ _ _ _ _ _ _ K RO MX H L ST) as (? & ? & ? & ? & ? & ? & _ & _ & _ & Q & _). split; [exact Q|discriminate].
    - destruct (stop_size _ _ _ _ _ _ _ _ _ _ K RO MX H L ST) as (? & ? & ? & ? & ? & ? & _ & _ & Q1 & Q2 & _). split; [exact Q2|intros _; exact Q1]. }
  destruct LF as [LF NT]. rewrite LF. unfold pbb_exit.
  destruct (Z.ltb_spec disj_terms 2) as [A|A]; [split; [discriminate|split; [discriminate|lia]]|].
  cbn [orb]. destruct (Z.leb_spec (Z.of_nat (d_num_terms (h_disj st'))) 1) as [B|B].
  - destruct optimal; (split; [discriminate|split; [discriminate|lia]]).
  - rewrite Z.eqb_refl. cbn [negb orb]. replace (negb (c_keep cfg) && _) with false; [split; [discriminate|split; [discriminate|reflexivity]]|].
    destruct (c_keep cfg); [reflexivity|]. cbn [negb andb]. symmetry. apply negb_false_iff, Z.eqb_eq. rewrite (NT eq_refl). destruct (h_isol st); reflexivity.
Qed.
Print Assumptions prepare_after_stop.

Example stop_size_example :
  step (ex_cfg false 3) ex_s2 (tree_now ex_s2 ok_solve) = EvStop ex_s3 /\ d_num_terms (h_disj ex_s3) = 3%nat /\ open_branches ex_s2 = 3%Z.
Proof. split; [vm_compute; reflexivity|]. split; vm_compute; reflexivity. Qed.
(** With infeasible terms the tree is saved, found too small and the search goes on. *)
Definition half_solve : nat -> list bchange -> option Q := fun i _ => if Nat.eqb i 0 then None else Some 0.
Example search_goes_on_example :
  exists s, step (ex_cfg false 3) ex_s2 (tree_now ex_s2 half_solve) = EvGo s /\ h_leaf s = 1%Z /\ h_end s = false.
Proof. eexists. split; [vm_compute; reflexivity|]. split; reflexivity. Qed.
(** The number of terms is not bounded by the requested maximum itself: several branchings between two treeStatus
    events may exceed it. *)
Definition ov_child : childinfo :=
  {| ci_var := 0; ci_value := 1 # 2; ci_up := true; ci_dcode := 0; ci_lo := ex_box 0 0; ci_hi := ex_box 1 0; ci_obj := 0 |}.
Definition ov_s3 := after (ex_cfg false 3) ex_s2 (ABranch 0 (Created ov_child)).
Definition ov_s4 := after (ex_cfg false 3) ov_s3 (tree_now ov_s3 ok_solve).
Theorem at_most_max_refuted :
  step (ex_cfg false 3) ex_s2 (ABranch 0 (Created ov_child)) = EvGo ov_s3 /\
  step (ex_cfg false 3) ov_s3 (tree_now ov_s3 ok_solve) = EvStop ov_s4 /\ d_num_terms (h_disj ov_s4) = 4%nat.
Proof. split; [vm_compute; reflexivity|]. split; vm_compute; reflexivity. Qed.
Print Assumptions at_most_max_refuted.
