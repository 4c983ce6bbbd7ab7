(** C06: the terms recorded from a partial branch-and-bound tree cover every integer point of the root box that
    the search itself (Cbc) has not given up. *)
From Verif Require Import Prelude Model.Tolerance Model.LP Model.Disjunction Model.EventHandler
  Spec.LPSpec Spec.DisjSpec Spec.TreeSpec Proofs.EventHandlerP.
From Coq Require Import Permutation.

(** Whatever happened before the search was stopped, the disjunction found then contains every integer point
    of the root box that no event gave up. *)
Theorem tree_covers cfg ints lo0 up0 root d h st a st' :
  root_ok (c_n cfg) ints root -> (0 < c_max cfg)%Z ->
  history cfg (lawful cfg ints) (h_init lo0 up0 root d) h st -> lawful cfg ints st a -> step cfg st a = EvStop st' ->
  forall x, integral ints (c_n cfg) x -> in_bounds (c_n cfg) (cn_lo root) (cn_hi root) x ->
  (forall s b, In (s, b) (h ++ [(st, a)]) -> ~ gives_up cfg s b x) ->
  in_disj (h_disj st') x.
Proof.
  intros RO MX H L ST x XI XB XG.
  set (good := fun y => integral ints (c_n cfg) y /\ in_bounds (c_n cfg) (cn_lo root) (cn_hi root) y /\
                        forall s b, In (s, b) (h ++ [(st, a)]) -> ~ gives_up cfg s b y).
  assert (R : run cfg (allowed cfg ints good) (h_init lo0 up0 root d) st).
  { apply (history_run cfg ints _ h); [exact H|]. intros y (_ & _ & G) s b I. apply G, in_or_app. left. exact I. }
  assert (AL : allowed cfg ints good st a).
  { apply lawful_allowed; [exact L|]. intros y (_ & _ & G). apply G, in_or_app. right. left. reflexivity. }
  destruct (stop_spec cfg ints good lo0 up0 root (fun y G => proj1 G) RO (fun y G => proj1 (proj2 G)) MX d st a st' R AL ST)
    as (ord & timeup & pok & solve & slo & sup & _ & _ & _ & _ & _ & _ & _ & C & _).
  apply C. split; [exact XI|]. split; assumption.
Qed.
Print Assumptions tree_covers.

(** When pruned nodes are kept nothing is given up by pruning or by an unsolved term: only dropped nodes and
    children with a smaller box than their branch matter. *)
Theorem tree_covers_kept cfg ints lo0 up0 root d h st a st' :
  c_keep cfg = true -> root_ok (c_n cfg) ints root -> (0 < c_max cfg)%Z ->
  history cfg (lawful cfg ints) (h_init lo0 up0 root d) h st -> lawful cfg ints st a -> step cfg st a = EvStop st' ->
  (forall s k, In (s, ADrop k) h -> (length (h_tree s) <= k)%nat) ->
  (forall s k c, In (s, ABranch k (Created c)) h \/ (exists i o, In (s, ABranch k (Misjudged c i o)) h) ->
     forall nd x, nth_error (h_tree s) k = Some nd -> next_branch (c_n cfg) nd x -> in_bounds (c_n cfg) (ci_lo c) (ci_hi c) x) ->
  forall x, integral ints (c_n cfg) x -> in_bounds (c_n cfg) (cn_lo root) (cn_hi root) x -> in_disj (h_disj st') x.
Proof.
  intros K RO MX H L ST HD HC x XI XB. apply (tree_covers cfg ints lo0 up0 root d h st a st' RO MX H L ST x XI XB).
  intros s b I G. apply in_app_or in I.
  destruct b as [? ? ? ? ? ?|k out|k|?]; cbn [gives_up] in G.
  - destruct G as [G _]. congruence.
  - destruct G as (nd & N & NB & G).
    destruct I as [I|[I|[]]].
    + destruct out as [c|? ? ? ?|c i o]; [|congruence|]; apply G.
      * apply (HC s k c (or_introl I) nd x N NB).
      * apply (HC s k c (or_intror (ex_intro _ i (ex_intro _ o I))) nd x N NB).
    + inversion I; subst s a. exfalso.
      assert (R : run cfg (allowed cfg ints (fun _ => False)) (h_init lo0 up0 root d) st).
      { apply (history_run cfg ints _ h); [exact H|]. intros y []. }
      destruct (run_inv cfg ints (fun _ => False) lo0 up0 root (fun y G => match G with end) RO (fun y G => match G with end) MX d st R) as [_ LV].
      destruct (live_no_stop cfg st _ st' LV ST) as (? & ? & ? & ? & ? & ? & Q). discriminate.
  - destruct G as (nd & N & _). destruct I as [I|[I|[]]].
    + specialize (HD s k I). apply nth_error_None in HD. congruence.
    + inversion I; subst a. cbn [step] in ST. discriminate.
  - contradiction.
Qed.
Print Assumptions tree_covers_kept.

(** * A run: two binary variables, the root branched on x0, its up child on x1. *)
Definition ex_box (a b : Q) : nat -> option Q := fun j => match j with 0 => Some a | _ => Some b end%nat.
Definition ex_root : cnode :=
  {| cn_num := 0; cn_left := 2; cn_var := 0; cn_value := 1 # 2; cn_up := true; cn_dcode := 0;
     cn_lo := ex_box 0 0; cn_hi := ex_box 1 1; cn_obj := 0; cn_parent := None |}.
Definition ex_child : childinfo :=
  {| ci_var := 1; ci_value := 1 # 2; ci_up := true; ci_dcode := 0; ci_lo := ex_box 1 0; ci_hi := ex_box 1 1; ci_obj := 0 |}.
Definition ex_cfg (keep : bool) (mx : Z) : hcfg := {| c_n := 2; c_max := mx; c_keep := keep; c_nochoose := true |}.
Definition ex_s0 := h_init (ex_box 0 0) (ex_box 1 1) ex_root disj_new.
Definition ok_solve : nat -> list bchange -> option Q := fun _ _ => Some 0.
Definition tree_now (st : hst) (solve : nat -> list bchange -> option Q) : action :=
  ATree (h_tree st) false (fun _ => true) solve (ex_box 1 0) (ex_box 1 1).
Definition go (r : evres) : hst := match r with EvGo s | EvStop s => s | EvExit => ex_s0 end.
Definition after (cfg : hcfg) (st : hst) (a : action) : hst := go (step cfg st a).
Definition ex_s1 := after (ex_cfg false 3) ex_s0 (tree_now ex_s0 ok_solve).
Definition ex_s2 := after (ex_cfg false 3) ex_s1 (ABranch 0 (Created ex_child)).
Definition ex_s3 := after (ex_cfg false 3) ex_s2 (tree_now ex_s2 ok_solve).

Lemma ex_root_ok : root_ok 2 (fun _ => true) ex_root.
Proof. split; [reflexivity|]. split; [reflexivity|]. split; [reflexivity|]. split; [vm_compute; lia|]. split; [reflexivity|]. split; [vm_compute; discriminate|left; reflexivity]. Qed.
Lemma ex_decision : decision_ok 2 (fun _ => true) 1 (1 # 2) 0.
Proof. split; [lia|]. split; [reflexivity|]. split; [vm_compute; discriminate|left; reflexivity]. Qed.

Example tree_covers_example :
  history (ex_cfg false 3) (lawful (ex_cfg false 3) (fun _ => true)) ex_s0
    [(ex_s0, tree_now ex_s0 ok_solve); (ex_s1, ABranch 0 (Created ex_child))] ex_s2 /\
  lawful (ex_cfg false 3) (fun _ => true) ex_s2 (tree_now ex_s2 ok_solve) /\
  step (ex_cfg false 3) ex_s2 (tree_now ex_s2 ok_solve) = EvStop ex_s3 /\
  map td_changes (d_terms (h_disj ex_s3)) =
    [[{| bc_var := 0; bc_bound := 0; bc_val := 1 |}; {| bc_var := 1; bc_bound := 0; bc_val := 1 |}];
     [{| bc_var := 0; bc_bound := 0; bc_val := 1 |}; {| bc_var := 1; bc_bound := 1; bc_val := 0 |}];
     [{| bc_var := 0; bc_bound := 1; bc_val := 0 |}]] /\
  (forall x, integral (fun _ => true) 2 x -> in_bounds 2 (ex_box 0 0) (ex_box 1 1) x -> in_disj (h_disj ex_s3) x).
Proof.
  assert (H : history (ex_cfg false 3) (lawful (ex_cfg false 3) (fun _ => true)) ex_s0
    [(ex_s0, tree_now ex_s0 ok_solve); (ex_s1, ABranch 0 (Created ex_child))] ex_s2).
  { apply (hist_step _ _ _ [(ex_s0, tree_now ex_s0 ok_solve)] ex_s1).
    - apply (hist_step _ _ _ [] ex_s0); [constructor| |reflexivity].
      split; [apply Permutation_refl|]. left. left. reflexivity.
    - split; [discriminate|]. split; [right; reflexivity|exact ex_decision].
    - reflexivity. }
  assert (L : lawful (ex_cfg false 3) (fun _ => true) ex_s2 (tree_now ex_s2 ok_solve)).
  { split; [apply Permutation_refl|]. left. right. reflexivity. }
  assert (S : step (ex_cfg false 3) ex_s2 (tree_now ex_s2 ok_solve) = EvStop ex_s3) by reflexivity.
  split; [exact H|]. split; [exact L|]. split; [exact S|]. split; [vm_compute; reflexivity|].
  intros x XI XB. apply (tree_covers (ex_cfg false 3) (fun _ => true) _ _ ex_root disj_new _ _ _ _ ex_root_ok eq_refl H L S x XI XB).
  intros s b [I|[I|[I|[]]]] G; inversion I; subst s b; cbn [gives_up tree_now] in G.
  - destruct G as (_ & i & cs & G & _). discriminate.
  - destruct G as (nd & N & NB & G). inversion N; subst nd. apply G. destruct NB as [B1 B2].
    intros j J. destruct (B1 j J) as [U1 U2]. destruct j as [|[|j]]; [| |cbn in J; lia].
    + split; [exact B2|exact U2].
    + split; assumption.
  - destruct G as (_ & i & cs & G & _). discriminate.
Qed.

(** * The hypothesis is needed: what the search gives up is lost. *)
(** A branch pruned by its bound (default mode): its integer points are in no term. *)
Definition pr_s2 := after (ex_cfg false 3) ex_s1 (ABranch 0 (Pruned false (ex_box 1 0) (ex_box 1 1) 10)).
Definition pr_s3 := after (ex_cfg false 3) pr_s2 (ATree (h_tree pr_s2) true (fun _ => true) ok_solve (ex_box 1 0) (ex_box 1 1)).
Definition pt (a b : Q) : nat -> Q := fun j => match j with 0 => a | _ => b end%nat.
Theorem pruned_covered_refuted :
  step (ex_cfg false 3) ex_s1 (ABranch 0 (Pruned false (ex_box 1 0) (ex_box 1 1) 10)) = EvGo pr_s2 /\
  step (ex_cfg false 3) pr_s2 (ATree (h_tree pr_s2) true (fun _ => true) ok_solve (ex_box 1 0) (ex_box 1 1)) = EvStop pr_s3 /\
  in_bounds 2 (ex_box 0 0) (ex_box 1 1) (pt 1 0) /\ integral (fun _ => true) 2 (pt 1 0) /\ ~ in_disj (h_disj pr_s3) (pt 1 0).
Proof.
  split; [reflexivity|]. split; [reflexivity|]. split; [|split].
  - intros [|[|j]] J; [| |lia]; cbn; lra.
  - intros [|[|j]] J _; [| |lia]; cbn; [exists 1%Z|exists 0%Z]; reflexivity.
  - intros (_ & t & T & S & _). vm_compute in T. destruct T as [<-|[]]. specialize (S _ (or_introl eq_refl)). vm_compute in S. apply S. reflexivity.
Qed.
Print Assumptions pruned_covered_refuted.

(** Keeping pruned nodes does not help for nodes Cbc removes from the tree without an event. *)
Definition kd_s1 := after (ex_cfg true 3) ex_s0 (tree_now ex_s0 ok_solve).
Definition kd_s2 := after (ex_cfg true 3) kd_s1 (ABranch 0 (Created ex_child)).
Definition kd_s3 := after (ex_cfg true 3) kd_s2 (ADrop 0).
Definition kd_s4 := after (ex_cfg true 3) kd_s3 (ATree (h_tree kd_s3) true (fun _ => true) ok_solve (ex_box 1 0) (ex_box 1 1)).
Theorem kept_dropped_refuted :
  step (ex_cfg true 3) kd_s2 (ADrop 0) = EvGo kd_s3 /\
  step (ex_cfg true 3) kd_s3 (ATree (h_tree kd_s3) true (fun _ => true) ok_solve (ex_box 1 0) (ex_box 1 1)) = EvStop kd_s4 /\
  in_bounds 2 (ex_box 0 0) (ex_box 1 1) (pt 1 0) /\ ~ in_disj (h_disj kd_s4) (pt 1 0).
Proof.
  split; [reflexivity|]. split; [reflexivity|]. split.
  - intros [|[|j]] J; [| |lia]; cbn; lra.
  - intros (_ & t & T & S & _). vm_compute in T. destruct T as [<-|[]]. specialize (S _ (or_introl eq_refl)). vm_compute in S. apply S. reflexivity.
Qed.
Print Assumptions kept_dropped_refuted.

(** A created child that the handler took for pruned is only repaired at the end of the next treeStatus event:
    if that event saves, the child's number is looked up in statistics that do not have it yet
    (VPCEventHandler.cpp:470-490 come before 509-565). *)
Definition mj_s2 := after (ex_cfg false 3) ex_s1 (ABranch 0 (Misjudged ex_child false 0)).
Theorem misjudged_then_save_refuted :
  step (ex_cfg false 3) ex_s1 (ABranch 0 (Misjudged ex_child false 0)) = EvGo mj_s2 /\
  step (ex_cfg false 3) mj_s2 (tree_now mj_s2 ok_solve) = EvExit.
Proof. split; reflexivity. Qed.
Print Assumptions misjudged_then_save_refuted.
(** If it does not save, the next save covers everything again. *)
Definition mr_s2 := after (ex_cfg false 4) (after (ex_cfg false 4) ex_s0 (tree_now ex_s0 ok_solve)) (ABranch 0 (Misjudged ex_child false 0)).
Example misjudged_repair_example :
  exists s3, step (ex_cfg false 4) mr_s2 (tree_now mr_s2 ok_solve) = EvGo s3 /\ length (h_stats s3) = h_count2 s3 /\
  map ns_id (h_stats s3) = [0; 1; 2]%nat /\ h_pruned s3 = [].
Proof. eexists. split; [vm_compute; reflexivity|]. repeat split; reflexivity. Qed.
