(** Invariants of the search recorded by the event handler. *)
From Verif Require Import Prelude Model.Tolerance Model.LP Model.Disjunction Model.EventHandler
  Spec.LPSpec Spec.DisjSpec Spec.TreeSpec Proofs.ToleranceP.
From Coq Require Import Permutation.

Lemma ceil_floor_frac v : ~ v == inject_Z (Qfloor v) -> Qceiling v = (Qfloor v + 1)%Z.
Proof.
  intro N. pose proof (Qfloor_le v) as F1. pose proof (Qlt_floor v) as F2.
  pose proof (Qle_ceiling v) as C1. pose proof (Qceiling_lt v) as C2.
  assert (A : (Qfloor v < Qceiling v)%Z).
  { rewrite Zlt_Qlt. destruct (Qlt_le_dec (inject_Z (Qfloor v)) v) as [L|L]; [lra|]. exfalso. apply N. lra. }
  assert (B : (Qceiling v - 1 < Qfloor v + 1)%Z) by (rewrite Zlt_Qlt; lra).
  lia.
Qed.

(** Behaviours that lose no point of [good]. *)
Definition child_allowed (n : nat) (ints : nat -> bool) (good : (nat -> Q) -> Prop) (nd : cnode) (c : childinfo) : Prop :=
  decision_ok n ints (ci_var c) (ci_value c) (ci_dcode c) /\
  (forall x, good x -> next_branch n nd x -> in_bounds n (ci_lo c) (ci_hi c) x).
Definition allowed (cfg : hcfg) (ints : nat -> bool) (good : (nat -> Q) -> Prop) (st : hst) (a : action) : Prop :=
  match a with
  | ATree ord timeup _ solve slo sup =>
      Permutation (h_tree st) ord /\
      (c_keep cfg = false -> forall i cs, solve i cs = None -> forall x, good x -> ~ (forall c, In c cs -> sat_change c x)) /\
      (recorded st \/
       (count_leaves cfg (set_tree st ord) < c_max cfg)%Z /\ timeup = false /\
       forall p nd, hd_error (rev (h_pruned st)) = Some p -> In nd (h_tree st) -> cn_num nd = ns_id p ->
         cn_lo nd = slo /\ cn_hi nd = sup)
  | ABranch k out =>
      h_stats st <> [] /\ recorded st /\
      forall nd, nth_error (h_tree st) k = Some nd ->
      match out with
      | Created c => child_allowed (c_n cfg) ints good nd c
      | Pruned _ _ _ _ => c_keep cfg = false -> forall x, good x -> ~ next_branch (c_n cfg) nd x
      | Misjudged c _ _ => c_nochoose cfg = true /\ child_allowed (c_n cfg) ints good nd c
      end
  | ADrop k => recorded st /\
      forall nd, nth_error (h_tree st) k = Some nd -> forall x, good x -> ~ unexplored (c_n cfg) nd x
  | ASol _ => recorded st
  end.
(** Runs in which every event lets the search go on. *)
Inductive run (cfg : hcfg) (ok : hst -> action -> Prop) (s0 : hst) : hst -> Prop :=
| run_nil : run cfg ok s0 s0
| run_step s a s' : run cfg ok s0 s -> ok s a -> step cfg s a = EvGo s' -> run cfg ok s0 s'.

Lemma in_bounds_stable n lo up x : ~ ~ in_bounds n lo up x -> in_bounds n lo up x.
Proof.
  intros H j J. split.
  - unfold above. destruct (lo j) as [l|] eqn:L; [|exact I]. destruct (Qlt_le_dec (x j) l) as [Q|Q]; [|exact Q].
    exfalso. apply H. intro B. destruct (B j J) as [B1 _]. rewrite L in B1. cbn in B1. lra.
  - unfold below. destruct (up j) as [u|] eqn:L; [|exact I]. destruct (Qlt_le_dec u (x j)) as [Q|Q]; [|exact Q].
    exfalso. apply H. intro B. destruct (B j J) as [_ B1]. rewrite L in B1. cbn in B1. lra.
Qed.
Lemma lawful_allowed cfg ints (good : (nat -> Q) -> Prop) st a :
  lawful cfg ints st a -> (forall x, good x -> ~ gives_up cfg st a x) -> allowed cfg ints good st a.
Proof.
  destruct a as [ord timeup pok solve slo sup|k out|k|x]; cbn [lawful allowed gives_up].
  - intros [P R] G. split; [exact P|]. split; [|exact R]. intros K i cs S x X H. apply (G x X). split; [exact K|]. exists i, cs. split; assumption.
  - intros (A & B & C) G. split; [exact A|]. split; [exact B|]. intros nd N.
    assert (CH : forall c, (forall x, good x -> ~ (exists nd, nth_error (h_tree st) k = Some nd /\ next_branch (c_n cfg) nd x /\
        ~ in_bounds (c_n cfg) (ci_lo c) (ci_hi c) x)) -> forall x, good x -> next_branch (c_n cfg) nd x -> in_bounds (c_n cfg) (ci_lo c) (ci_hi c) x).
    { intros c H x X NB. apply in_bounds_stable. intro Q. apply (H x X). exists nd. repeat apply conj; assumption || apply NB. }
    destruct out as [c|? ? ? ?|c ? ?].
    + split; [exact C|]. apply CH, G.
    + intros K x X NB. apply (G x X). exists nd. split; [exact N|]. split; assumption.
    + split; [apply C|]. split; [apply C|]. apply CH, G.
  - intros R G. split; [exact R|]. intros nd N x X U. apply (G x X). exists nd. split; assumption.
  - intros R _. exact R.
Qed.
(** A history is a run for the points never given up in it. *)
Lemma history_run cfg ints s0 h st (good : (nat -> Q) -> Prop) :
  history cfg (lawful cfg ints) s0 h st -> (forall x, good x -> forall s b, In (s, b) h -> ~ gives_up cfg s b x) ->
  run cfg (allowed cfg ints good) s0 st.
Proof.
  induction 1 as [|h s a s' H IH L S]; intro G; [constructor|].
  apply (run_step _ _ _ s a s').
  - apply IH. intros x X t b I. apply (G x X). apply in_or_app. left. exact I.
  - apply lawful_allowed; [exact L|]. intros x X. apply (G x X). apply in_or_app. right. left. reflexivity.
  - exact S.
Qed.

Section Inv.
Variables (cfg : hcfg) (ints : nat -> bool) (good : (nat -> Q) -> Prop).
Variables (lo0 up0 : nat -> option Q) (root : cnode).
Let n := c_n cfg.
Hypothesis Hint : forall x, good x -> integral ints n x.
Hypothesis Hroot : root_ok n ints root.
Hypothesis Hgoodroot : forall x, good x -> in_bounds n (cn_lo root) (cn_hi root) x.
Hypothesis Hmax : (0 < c_max cfg)%Z.

Definition c0 := changedBounds n (cn_lo root) (cn_hi root) lo0 up0.
Definition lo1 := apply_lo c0 lo0.
Definition up1 := apply_up c0 up0.
Definition cb (nd : cnode) := changedBounds n (cn_lo nd) (cn_hi nd) lo1 up1.

(** The statistics entry [o] with index [orig] records the box of [nd]. *)
Definition box_rec (nd : cnode) (orig : nat) (o : nodestat) : Prop :=
  (orig = 0%nat /\ cn_lo nd = cn_lo root /\ cn_hi nd = cn_hi root) \/ (orig <> 0%nat /\ (ns_changes o = cb nd \/ ns_changes o = cb nd ++ cb nd)).

Definition node_inv (stats : list nodestat) (nd : cnode) : Prop :=
  decision_ok n ints (cn_var nd) (cn_value nd) (cn_dcode nd) /\
  (cn_left nd = 1%nat \/ cn_left nd = 2%nat) /\
  (forall p, cn_parent nd = Some p -> (p < cn_num nd)%nat) /\
  exists s o, nth_error stats (cn_num nd) = Some s /\ nth_error stats (ns_orig s) = Some o /\
    ns_var s = cn_var nd /\ ns_way s = way_code nd (cur_up nd) /\ ns_bval s = branch_val (cn_value nd) (cur_up nd) /\
    ns_bi s = (2 - cn_left nd)%nat /\ ns_way o = way_code nd (cn_up nd) /\ ns_bval o = branch_val (cn_value nd) (cn_up nd) /\
    box_rec nd (ns_orig s) o /\ (cn_left nd = 2%nat -> ns_orig s = cn_num nd).

Definition way01 (w : Z) : Z := if (w =? 1)%Z then 1%Z else 0%Z.
(** The term that would be written for a pruned node. *)
Definition pruned_changes (stats : list nodestat) (p : nodestat) (cs : list bchange) : Prop :=
  exists id s o, ns_parent p = Some id /\ nth_error stats id = Some s /\ nth_error stats (ns_orig s) = Some o /\
    cs = term_changes o (ns_orig s) (ns_var s) (way01 (ns_way s)) (ns_bval s).

Definition stats_inv (stats : list nodestat) : Prop :=
  forall i s, nth_error stats i = Some s -> ns_id s = i /\ (forall p, ns_parent s = Some p -> (p < i)%nat).

Definition inv (st : hst) : Prop :=
  h_stats st <> [] /\ length (h_stats st) = h_count2 st /\ stats_inv (h_stats st) /\
  (exists s, nth_error (h_stats st) 0 = Some s /\ ns_changes s = c0) /\
  h_lo st = lo1 /\ h_up st = up1 /\
  (forall nd, In nd (h_tree st) -> node_inv (h_stats st) nd) /\
  (forall p, In p (h_pruned st) -> exists cs, pruned_changes (h_stats st) p cs) /\
  (forall x, good x -> (exists nd, In nd (h_tree st) /\ unexplored n nd x) \/
     (c_keep cfg = true /\ exists p cs, In p (h_pruned st) /\ pruned_changes (h_stats st) p cs /\ forall c, In c cs -> sat_change c x)).

Definition inv0 (st : hst) : Prop :=
  h_stats st = [] /\ h_pruned st = [] /\ h_count2 st = 1%nat /\ h_lo st = lo0 /\ h_up st = up0 /\
  (forall nd, In nd (h_tree st) -> nd = root) /\ (length (h_tree st) <= 1)%nat /\
  (forall x, good x -> exists nd, In nd (h_tree st) /\ unexplored n nd x).

(** The search has not reached a limit. *)
Definition live (st : hst) : Prop := h_end st = false /\ (h_leaf st < c_max cfg)%Z.

Lemma nth_app {A} (l l' : list A) i a : nth_error l i = Some a -> nth_error (l ++ l') i = Some a.
Proof. intro H. rewrite nth_error_app1; [exact H|]. apply nth_error_Some. congruence. Qed.
Lemma nth_snoc {A} (l : list A) a : nth_error (l ++ [a]) (length l) = Some a.
Proof. rewrite nth_error_app2 by lia. rewrite Nat.sub_diag. reflexivity. Qed.
Lemma nth_lt {A} (l : list A) i a : nth_error l i = Some a -> (i < length l)%nat.
Proof. intro H. apply nth_error_Some. congruence. Qed.

Lemma node_inv_app stats l nd : node_inv stats nd -> node_inv (stats ++ l) nd.
Proof.
  intros (A & B & C & s & o & S & O & R). split; [exact A|]. split; [exact B|]. split; [exact C|].
  exists s, o. split; [apply nth_app, S|]. split; [apply nth_app, O|exact R].
Qed.
Lemma pruned_app stats l p cs : pruned_changes stats p cs -> pruned_changes (stats ++ l) p cs.
Proof.
  intros (id & s & o & A & S & O & R). exists id, s, o. split; [exact A|]. split; [apply nth_app, S|]. split; [apply nth_app, O|exact R].
Qed.
Lemma stats_inv_snoc stats s : stats_inv stats -> ns_id s = length stats ->
  (forall p, ns_parent s = Some p -> (p < length stats)%nat) -> stats_inv (stats ++ [s]).
Proof.
  intros H E P i t T. destruct (Nat.lt_ge_cases i (length stats)) as [L|L].
  - rewrite nth_error_app1 in T by exact L. apply H, T.
  - assert (i = length stats).
    { apply nth_lt in T. rewrite app_length in T. cbn in T. lia. }
    subst i. rewrite nth_snoc in T. inversion T; subst. split; [exact E|exact P].
Qed.

(** setNodeStatistics succeeds when the id is next. *)
Lemma rev_last (stats : list nodestat) l b : rev stats = l :: b -> stats = rev b ++ [l].
Proof. intro H. rewrite <- (rev_involutive stats), H. reflexivity. Qed.
Lemma sns_new olo oup stats nd c2 wc slo sup s :
  stats_inv stats -> setNodeStatistics n olo oup stats nd c2 wc slo sup = Some s ->
  ns_id s = length stats \/ stats = [].
Proof.
  unfold setNodeStatistics. cbv zeta. intros H E. destruct (rev stats) as [|l b] eqn:R.
  - right. rewrite <- (rev_involutive stats), R. reflexivity.
  - left. apply rev_last in R. destruct (Nat.eqb _ _) eqn:Q in E; [|discriminate]. inversion E; subst s; clear E. cbn [ns_id].
    apply Nat.eqb_eq in Q. etransitivity; [exact Q|].
    assert (L : nth_error stats (length (rev b)) = Some l) by (rewrite R; apply nth_snoc).
    destruct (H _ _ L) as [-> _]. rewrite R at 1. rewrite app_length. cbn [length]. lia.
Qed.
Lemma sns_fields olo oup stats nd c2 wc slo sup s :
  setNodeStatistics n olo oup stats nd c2 wc slo sup = Some s ->
  ns_orig s = cn_num nd /\ ns_parent s = cn_parent nd /\ ns_var s = cn_var nd /\ ns_way s = way_code nd (cur_up nd) /\
  ns_bi s = (2 - cn_left nd)%nat /\ ns_bval s = branch_val (cn_value nd) (cur_up nd) /\
  ns_changes s = (if Nat.eqb (2 - cn_left nd) 0 then changedBounds n slo sup olo oup else []) /\
  ns_id s = (if Nat.eqb (2 - cn_left nd) 0 then cn_num nd else (c2 + (if wc then 1 else 0))%nat).
Proof.
  unfold setNodeStatistics. cbv zeta. intro E.
  destruct (rev stats); [|destruct (Nat.eqb _ (S _)); [|discriminate]]; inversion E; subst s; cbn; repeat apply conj; reflexivity.
Qed.

Lemma cur_up_two nd : cn_left nd = 2%nat -> cur_up nd = cn_up nd.
Proof. intro H. unfold cur_up. rewrite H. reflexivity. Qed.
Lemma cur_up_one nd : cn_left nd = 1%nat -> cur_up nd = negb (cn_up nd).
Proof. intro H. unfold cur_up. rewrite H. reflexivity. Qed.
Lemma one_less_one nd : cn_left nd = 2%nat -> cn_left (one_less nd) = 1%nat.
Proof. intro H. cbn. rewrite H. reflexivity. Qed.

(** A good point of a node is on one of the two sides. *)
Lemma sides nd x : decision_ok n ints (cn_var nd) (cn_value nd) (cn_dcode nd) -> good x ->
  on_side nd true x \/ on_side nd false x.
Proof.
  intros (V & I & F & _) G. destruct (Hint x G (cn_var nd) V I) as [z Z]. unfold on_side.
  rewrite (ceil_floor_frac _ F). destruct (Z_le_gt_dec z (Qfloor (cn_value nd))) as [H|H].
  - right. rewrite Z. rewrite <- Zle_Qle. exact H.
  - left. rewrite Z. rewrite <- Zle_Qle. lia.
Qed.

(** Membership in a node's box gives the recorded changes. *)
Lemma sat_changed lo up olo oup x c :
  in_bounds n lo up x -> In c (changedBounds n lo up olo oup) -> sat_change c x.
Proof.
  intros B H. unfold changedBounds in H. apply in_flat_map in H. destruct H as (j & J & H).
  apply in_seq in J. destruct (B j ltac:(lia)) as [L U]. apply in_app_or in H. destruct H as [H|H]; unfold changed_entry in H.
  - destruct (lo j) as [v|]; [|destruct H]. destruct (isValB _ _); [destruct H|]. destruct H as [<-|[]]. exact L.
  - destruct (up j) as [v|]; [|destruct H]. destruct (isValB _ _); [destruct H|]. destruct H as [<-|[]]. exact U.
Qed.

(** Description of a term: it is the given side of the given node. *)
Definition term_of (nd : cnode) (up : bool) (cs : list bchange) : Prop :=
  exists orig o v, box_rec nd orig o /\ v == branch_val (cn_value nd) up /\
    cs = (if Nat.eqb orig 0 then [] else ns_changes o) ++
         [{| bc_var := cn_var nd; bc_bound := if up then 0%Z else 1%Z; bc_val := v |}] /\
    (cn_left nd = 1%nat -> up = cur_up nd).

Lemma term_of_sat nd up cs x : term_of nd up cs -> in_bounds n (cn_lo nd) (cn_hi nd) x -> on_side nd up x ->
  forall c, In c cs -> sat_change c x.
Proof.
  intros (orig & o & v & B & V & -> & _) I S c H. apply in_app_or in H. destruct H as [H|[<-|[]]].
  - destruct (Nat.eqb orig 0) eqn:Z; [destruct H|]. apply Nat.eqb_neq in Z. destruct B as [(Z' & _)|(_ & E)]; [contradiction|].
    destruct E as [E|E]; rewrite E in H; [exact (sat_changed _ _ _ _ _ _ I H)|].
    apply in_app_or in H. destruct H as [H|H]; exact (sat_changed _ _ _ _ _ _ I H).
  - unfold sat_change. unfold on_side in S. unfold branch_val in V. destruct up; cbn [bc_bound bc_val bc_var]; cbn.
    + rewrite V. exact S.
    + rewrite V. exact S.
Qed.

Lemma way_code_one nd up : decision_ok n ints (cn_var nd) (cn_value nd) (cn_dcode nd) -> (way_code nd up =? 1)%Z = up.
Proof. intros (_ & _ & _ & D). unfold way_code. destruct up; [reflexivity|]. destruct D as [-> | ->]; reflexivity. Qed.
Lemma way_code_le nd up : decision_ok n ints (cn_var nd) (cn_value nd) (cn_dcode nd) -> (way_code nd up <=? 0)%Z = negb up.
Proof. intros (_ & _ & _ & D). unfold way_code. destruct up; [reflexivity|]. destruct D as [-> | ->]; reflexivity. Qed.

(** The value of the opposite side. *)
Lemma other_val nd (up : bool) : ~ cn_value nd == inject_Z (Qfloor (cn_value nd)) ->
  (if up then branch_val (cn_value nd) up - 1 else branch_val (cn_value nd) up + 1)%Q == branch_val (cn_value nd) (negb up).
Proof.
  intro F. unfold branch_val. pose proof (ceil_floor_frac _ F) as C. destruct up; cbn [negb]; rewrite C, inject_Z_plus.
  - change (inject_Z 1) with 1. ring.
  - change (inject_Z 1) with 1. ring.
Qed.

Lemma root_side_ok stats : stats_inv stats -> forall fuel id s, nth_error stats id = Some s -> (id < fuel)%nat ->
  exists d, root_side stats fuel id = Some d.
Proof.
  intro SI. induction fuel as [|f IH]; intros id s S L; [lia|]. cbn [root_side]. rewrite S.
  destruct (SI _ _ S) as [_ P]. destruct (ns_parent s) as [p|].
  - specialize (P p eq_refl). destruct (nth_error stats p) as [t|] eqn:T.
    + apply (IH p t T). lia.
    + exfalso. apply nth_error_None in T. apply nth_lt in S. lia.
  - destruct (nth_error stats 0) as [r|] eqn:R; [eexists; reflexivity|].
    exfalso. apply nth_error_None in R. apply nth_lt in S. lia.
Qed.

(** Effect of setting up one term. *)
Lemma setup_term_spec keep stats orig var way bval ans acc o :
  stats_inv stats -> nth_error stats orig = Some o ->
  exists acc', setup_term keep stats orig var way bval ans acc = Some acc' /\
    ((sa_num acc' = (sa_num acc + 1)%Z /\ sa_leaf acc' = sa_leaf acc /\
      exists t, sa_terms acc' = sa_terms acc ++ [t] /\ td_changes t = term_changes o orig var way bval /\ td_ineqs t = [] /\
        (td_feasible t = true <-> ans <> None)) \/
     (ans = None /\ keep = false /\ sa_num acc' = sa_num acc /\ sa_leaf acc' = (sa_leaf acc - 1)%Z /\ sa_terms acc' = sa_terms acc)).
Proof.
  intros SI O. unfold setup_term. rewrite O.
  destruct (root_side_ok stats SI (S (length stats)) orig o O) as [d D]; [pose proof (nth_lt _ _ _ O); lia|].
  destruct ans as [q|]; [|destruct keep].
  - rewrite D. eexists. split; [reflexivity|]. left. cbn. split; [reflexivity|]. split; [reflexivity|].
    eexists. split; [reflexivity|]. cbn. split; [reflexivity|]. split; [reflexivity|]. split; intros _; [discriminate|reflexivity].
  - rewrite D. eexists. split; [reflexivity|]. left. cbn. split; [reflexivity|]. split; [reflexivity|].
    eexists. split; [reflexivity|]. cbn. split; [reflexivity|]. split; [reflexivity|]. split; [discriminate|]. intro H; contradiction H; reflexivity.
  - eexists. split; [reflexivity|]. right. cbn. repeat apply conj; reflexivity.
Qed.

Lemma term_changes_of nd orig o way up v :
  decision_ok n ints (cn_var nd) (cn_value nd) (cn_dcode nd) ->
  box_rec nd orig o -> (way =? 1)%Z = up -> v == branch_val (cn_value nd) up ->
  (cn_left nd = 1%nat -> up = cur_up nd) ->
  term_of nd up (term_changes o orig (cn_var nd) way v).
Proof.
  intros D B W V L. exists orig, o, v. split; [exact B|]. split; [exact V|]. split; [|exact L].
  unfold term_changes. rewrite W. reflexivity.
Qed.

Definition solve_ok (solve : list bchange -> option Q) : Prop :=
  forall cs, solve cs = None -> forall x, good x -> ~ (forall c, In c cs -> sat_change c x).

(** What the saved terms must be: sides of tree nodes, all good unexplored points of [nodes] being covered. *)
Definition terms_from (nodes : list cnode) (ts : list termdata) : Prop :=
  forall t, In t ts -> td_ineqs t = [] /\ exists nd up, In nd nodes /\ term_of nd up (td_changes t).
Definition covered (nd : cnode) (ts : list termdata) : Prop :=
  forall x, good x -> unexplored n nd x -> exists t, In t ts /\ in_term t x.

Lemma in_term_of nd up t x : term_of nd up (td_changes t) -> td_ineqs t = [] ->
  in_bounds n (cn_lo nd) (cn_hi nd) x -> on_side nd up x -> in_term t x.
Proof.
  intros T I B S. split; [exact (term_of_sat nd up _ x T B S)|]. rewrite I. intros ? [].
Qed.

(** One node of saveInformation. *)
Lemma save_node_spec stats timeup pok solve len nd status acc acc' status' :
  stats_inv stats -> node_inv stats nd -> solve_ok solve ->
  save_node cfg stats timeup pok solve len nd status acc = Some (acc', status') ->
  (exists new, sa_terms acc' = sa_terms acc ++ new /\ terms_from [nd] new /\
     (sa_num acc' - sa_num acc = Z.of_nat (length new))%Z /\
     (status' = false -> c_keep cfg = false -> forall x, good x -> unexplored n nd x -> exists t, In t new /\ in_term t x)) /\
  (c_keep cfg = false -> status' = false -> (sa_num acc' + (sa_leaf acc - sa_leaf acc') = sa_num acc + Z.of_nat (cn_left nd))%Z) /\
  (c_keep cfg = false -> status = false -> status' = true ->
     timeup = false /\ (2 * (sa_num acc' + 2 * len - 1) <= c_max cfg)%Z /\
     (sa_num acc' + (sa_leaf acc - sa_leaf acc') = sa_num acc + 1)%Z) /\
  (status' = false -> status = false) /\ (timeup = true -> status' = status) /\ (sa_leaf acc' <= sa_leaf acc)%Z.
Proof.
  intros SI (D & LE & PA & s & o & S & O & F1 & F2 & F3 & F4 & F5 & F6 & BR & LO) SO H.
  unfold save_node in H. rewrite S in H.
  destruct (SI _ _ S) as [ID _]. rewrite ID, S, O in H. destruct pok; [|discriminate]. cbn [negb] in H. cbv zeta in H.
  rewrite F1, F2, F3, F4 in H.
  set (up := cur_up nd) in *.
  pose proof (term_changes_of nd (ns_orig s) o (way_code nd up) up (branch_val (cn_value nd) up) D BR
                (way_code_one nd up D) (Qeq_refl _) (fun _ => eq_refl)) as T1.
  set (cs1 := term_changes o (ns_orig s) (cn_var nd) (way_code nd up) (branch_val (cn_value nd) up)) in *.
  destruct (setup_term_spec (c_keep cfg) stats (ns_orig s) (cn_var nd) (way_code nd up) (branch_val (cn_value nd) up)
              (solve cs1) acc o SI O) as (acc1 & E1 & C1).
  rewrite E1 in H. rewrite (way_code_le nd up D) in H.
  (* the first side *)
  assert (N1 : exists new1, sa_terms acc1 = sa_terms acc ++ new1 /\
     (forall t, In t new1 -> td_ineqs t = [] /\ term_of nd up (td_changes t)) /\
     (sa_num acc1 - sa_num acc = Z.of_nat (length new1))%Z /\
     (c_keep cfg = false -> (sa_num acc1 + (sa_leaf acc - sa_leaf acc1) = sa_num acc + 1)%Z) /\
     (sa_leaf acc1 <= sa_leaf acc)%Z /\
     (c_keep cfg = false -> forall x, good x -> in_bounds n (cn_lo nd) (cn_hi nd) x -> on_side nd up x -> exists t, In t new1 /\ in_term t x)).
  { destruct C1 as [(A1 & A2 & t & A3 & A4 & A5 & _)|(A0 & A1 & A2 & A3 & A4)].
    - exists [t]. split; [exact A3|]. split.
      { intros t' [<-|[]]. split; [exact A5|]. rewrite A4. exact T1. }
      split; [cbn; lia|]. split; [intros _; lia|]. split; [lia|]. intros _ x G B SD. exists t. split; [left; reflexivity|].
      apply (in_term_of nd up); [rewrite A4; exact T1|exact A5|exact B|exact SD].
    - exists []. split; [rewrite A4, app_nil_r; reflexivity|]. split; [intros ? []|]. split; [cbn; lia|]. split; [lia|]. split; [lia|].
      intros _ x G B SD. exfalso. apply (SO cs1 A0 x G). exact (term_of_sat nd up cs1 x T1 B SD). }
  destruct N1 as (new1 & N1 & N2 & N3 & N4 & N4' & N5).
  set (status1 := status || (negb timeup && (2 * (sa_num acc1 + 2 * len - 1) <=? c_max cfg)%Z)) in *.
  assert (ST : status = false -> status1 = true -> timeup = false /\ (2 * (sa_num acc1 + 2 * len - 1) <= c_max cfg)%Z).
  { unfold status1. intros -> Q. cbn in Q. apply andb_true_iff in Q. destruct Q as [Q1 Q2].
    split; [destruct timeup; [discriminate|reflexivity]|apply Z.leb_le, Q2]. }
  assert (ST0 : status1 = false -> status = false) by (unfold status1; destruct status; [discriminate|reflexivity]).
  assert (ST2 : timeup = true -> status1 = status) by (unfold status1; intros ->; cbn; apply orb_false_r).
  destruct (negb status1 && Nat.eqb (2 - cn_left nd) 0) eqn:SEC.
  - apply andb_true_iff in SEC. destruct SEC as [SE1 SE2]. apply negb_true_iff in SE1. apply Nat.eqb_eq in SE2.
    assert (L2 : cn_left nd = 2%nat) by (destruct LE; lia).
    set (way2 := if negb up then 1%Z else 0%Z) in *.
    set (bval2 := if (way2 <=? 0)%Z then branch_val (cn_value nd) up - 1 else branch_val (cn_value nd) up + 1) in *.
    assert (B2 : bval2 == branch_val (cn_value nd) (negb up)).
    { rewrite <- (other_val nd up) by (apply D). unfold bval2, way2. destruct up; reflexivity. }
    assert (W2 : (way2 =? 1)%Z = negb up) by (unfold way2; destruct up; reflexivity).
    pose proof (term_changes_of nd (ns_orig s) o way2 (negb up) bval2 D BR W2 B2
                  ltac:(intro Q; rewrite L2 in Q; discriminate)) as T2.
    set (cs2 := term_changes o (ns_orig s) (cn_var nd) way2 bval2) in *.
    destruct (setup_term_spec (c_keep cfg) stats (ns_orig s) (cn_var nd) way2 bval2 (solve cs2) acc1 o SI O) as (acc2 & E2 & C2).
    rewrite E2 in H. inversion H; subst acc' status'. clear H.
    assert (M1 : exists new2, sa_terms acc2 = sa_terms acc1 ++ new2 /\
       (forall t, In t new2 -> td_ineqs t = [] /\ term_of nd (negb up) (td_changes t)) /\
       (sa_num acc2 - sa_num acc1 = Z.of_nat (length new2))%Z /\
       (c_keep cfg = false -> (sa_num acc2 + (sa_leaf acc1 - sa_leaf acc2) = sa_num acc1 + 1)%Z) /\
       (sa_leaf acc2 <= sa_leaf acc1)%Z /\
       (c_keep cfg = false -> forall x, good x -> in_bounds n (cn_lo nd) (cn_hi nd) x -> on_side nd (negb up) x -> exists t, In t new2 /\ in_term t x)).
    { destruct C2 as [(A1 & A2 & t & A3 & A4 & A5 & _)|(A0 & A1 & A2 & A3 & A4)].
      - exists [t]. split; [exact A3|]. split.
        { intros t' [<-|[]]. split; [exact A5|]. rewrite A4. exact T2. }
        split; [cbn; lia|]. split; [intros _; lia|]. split; [lia|]. intros _ x G B SD. exists t. split; [left; reflexivity|].
        apply (in_term_of nd (negb up)); [rewrite A4; exact T2|exact A5|exact B|exact SD].
      - exists []. split; [rewrite A4, app_nil_r; reflexivity|]. split; [intros ? []|]. split; [cbn; lia|]. split; [lia|]. split; [lia|].
        intros _ x G B SD. exfalso. apply (SO cs2 A0 x G). exact (term_of_sat nd (negb up) cs2 x T2 B SD). }
    destruct M1 as (new2 & M1 & M2 & M3 & M4 & M4' & M5).
    split; [|split; [|split; [|split; [|split]]]].
    + exists (new1 ++ new2). split; [rewrite M1, N1, <- app_assoc; reflexivity|]. split.
      { intros t HT. apply in_app_or in HT. destruct HT as [HT|HT].
        - destruct (N2 t HT) as [Q1 Q2]. split; [exact Q1|]. exists nd, up. split; [left; reflexivity|exact Q2].
        - destruct (M2 t HT) as [Q1 Q2]. split; [exact Q1|]. exists nd, (negb up). split; [left; reflexivity|exact Q2]. }
      split; [rewrite app_length; lia|]. intros _ K x G [U1 U2].
      destruct (sides nd x D G) as [SD|SD].
      * destruct up eqn:UP.
        -- destruct (N5 K x G U1 SD) as (t & Q1 & Q2). exists t. split; [apply in_or_app; left; exact Q1|exact Q2].
        -- destruct (M5 K x G U1 SD) as (t & Q1 & Q2). exists t. split; [apply in_or_app; right; exact Q1|exact Q2].
      * destruct up eqn:UP.
        -- destruct (M5 K x G U1 SD) as (t & Q1 & Q2). exists t. split; [apply in_or_app; right; exact Q1|exact Q2].
        -- destruct (N5 K x G U1 SD) as (t & Q1 & Q2). exists t. split; [apply in_or_app; left; exact Q1|exact Q2].
    + intros K _. specialize (N4 K). specialize (M4 K). rewrite L2. lia.
    + intros K Q1 Q2. rewrite SE1 in Q2. discriminate.
    + exact ST0.
    + exact ST2.
    + lia.
  - inversion H; subst acc' status'. clear H. split; [|split; [|split; [|split; [|split]]]].
    + exists new1. split; [exact N1|]. split.
      { intros t HT. destruct (N2 t HT) as [Q1 Q2]. split; [exact Q1|]. exists nd, up. split; [left; reflexivity|exact Q2]. }
      split; [exact N3|]. intros Q K x G [U1 U2].
      rewrite Q in SEC. cbn [negb andb] in SEC. apply Nat.eqb_neq in SEC.
      assert (L1 : cn_left nd = 1%nat) by (destruct LE; lia).
      exact (N5 K x G U1 (U2 L1)).
    + intros K Q. rewrite Q in SEC. cbn [negb andb] in SEC. apply Nat.eqb_neq in SEC.
      assert (L1 : cn_left nd = 1%nat) by (destruct LE; lia). rewrite L1. specialize (N4 K). lia.
    + intros K Q1 Q2. destruct (ST Q1 Q2) as [R1 R2]. split; [exact R1|]. split; [exact R2|]. exact (N4 K).
    + exact ST0.
    + exact ST2.
    + exact N4'.
Qed.

Definition sum_left (l : list cnode) : Z := fold_right Z.add 0%Z (map (fun nd => Z.of_nat (cn_left nd)) l).
Lemma sum_left_le stats l : (forall nd, In nd l -> node_inv stats nd) -> (sum_left l <= 2 * Z.of_nat (length l))%Z.
Proof.
  induction l as [|a r IH]; intro H; [cbn; lia|].
  unfold sum_left in *. cbn [map fold_right length]. specialize (IH (fun nd Q => H nd (or_intror Q))).
  destruct (H a (or_introl eq_refl)) as (_ & L & _). destruct L; lia.
Qed.

Lemma save_loop_spec stats timeup pok solve : stats_inv stats -> (forall i, solve_ok (solve i)) -> c_keep cfg = false ->
  forall nodes i acc acc' status, (forall nd, In nd nodes -> node_inv stats nd) ->
  (sa_leaf acc = sa_num acc + sum_left nodes)%Z ->
  save_loop cfg stats timeup pok solve i nodes false acc = Some (acc', status) ->
  exists new, sa_terms acc' = sa_terms acc ++ new /\ terms_from nodes new /\
    (sa_num acc' - sa_num acc = Z.of_nat (length new))%Z /\
    (status = false -> sa_leaf acc' = sa_num acc' /\
       forall nd x, In nd nodes -> good x -> unexplored n nd x -> exists t, In t new /\ in_term t x) /\
    (status = true -> timeup = false /\ (2 * sa_leaf acc' <= c_max cfg)%Z) /\ (sa_leaf acc' <= sa_leaf acc)%Z.
Proof.
  intros SI SO K. induction nodes as [|nd r IH]; intros i acc acc' status HN J H; cbn [save_loop] in H.
  - inversion H; subst. exists []. rewrite app_nil_r. split; [reflexivity|]. split; [intros ? []|]. split; [cbn; lia|].
    split; [|split; [discriminate|lia]]. intros _. unfold sum_left in J. cbn in J. split; [lia|]. intros nd x [].
  - cbv zeta in H. destruct (negb timeup && _) eqn:EX in H.
    + inversion H; subst. exists []. rewrite app_nil_r. split; [reflexivity|]. split; [intros ? []|]. split; [cbn; lia|].
      split; [discriminate|]. split; [|lia]. intros _. apply andb_true_iff in EX. destruct EX as [X1 X2].
      split; [destruct timeup; [discriminate|reflexivity]|]. apply Z.leb_le in X2.
      pose proof (sum_left_le stats (nd :: r) HN). lia.
    + destruct (save_node cfg stats timeup (pok i) (solve i) (Z.of_nat (length (nd :: r))) nd false acc) as [[acc1 st1]|] eqn:E; [|discriminate].
      destruct (save_node_spec _ _ _ _ _ _ _ _ _ _ SI (HN nd (or_introl eq_refl)) (SO i) E)
        as ((new1 & A1 & A2 & A3 & A4) & A5 & A6 & A7 & A8 & A9).
      assert (TF : forall l, terms_from [nd] l -> terms_from (nd :: r) l).
      { intros l Q t HT. destruct (Q t HT) as (Q1 & nd' & up & Q2 & Q3). split; [exact Q1|]. exists nd', up. split; [|exact Q3].
        destruct Q2 as [<-|[]]. left; reflexivity. }
      assert (J' : (sum_left (nd :: r) = Z.of_nat (cn_left nd) + sum_left r)%Z) by reflexivity.
      destruct st1.
      * destruct (A6 K eq_refl eq_refl) as (B1 & B2 & B3). subst timeup.
        assert (R : acc' = acc1 /\ status = true).
        { destruct r as [|b r']; cbn [save_loop] in H; [inversion H; split; reflexivity|].
          cbv zeta in H. replace (2 * (sa_num acc1 + 2 * Z.of_nat (length (b :: r'))) <=? c_max cfg)%Z with true in H.
          - cbn in H. inversion H; split; reflexivity.
          - symmetry. apply Z.leb_le. cbn [length] in *. lia. }
        destruct R as [-> ->]. exists new1. split; [exact A1|]. split; [apply TF, A2|]. split; [exact A3|].
        split; [discriminate|]. split; [|exact A9]. intros _. split; [reflexivity|].
        pose proof (sum_left_le stats r (fun nd' Q => HN nd' (or_intror Q))) as SL. cbn [length] in B2.
        destruct (HN nd (or_introl eq_refl)) as (_ & L & _). destruct L; lia.
      * specialize (A5 K eq_refl).
        destruct (IH (S i) acc1 acc' status (fun nd' Q => HN nd' (or_intror Q)) ltac:(lia) H) as (new2 & B1 & B2 & B3 & B4 & B5 & B6).
        exists (new1 ++ new2). split; [rewrite B1, A1, <- app_assoc; reflexivity|]. split.
        { intros t HT. apply in_app_or in HT. destruct HT as [HT|HT]; [apply (TF _ A2 t HT)|].
          destruct (B2 t HT) as (Q1 & nd' & up & Q2 & Q3). split; [exact Q1|]. exists nd', up. split; [right; exact Q2|exact Q3]. }
        split; [rewrite app_length; lia|]. split.
        { intro Q. destruct (B4 Q) as [B7 B8]. split; [exact B7|]. intros nd' x [<-|I] G U.
          - destruct (A4 eq_refl K x G U) as (t & T1 & T2). exists t. split; [apply in_or_app; left; exact T1|exact T2].
          - destruct (B8 nd' x I G U) as (t & T1 & T2). exists t. split; [apply in_or_app; right; exact T1|exact T2]. }
        split; [exact B5|lia].
Qed.

(** ** Keeping pruned nodes *)
Lemma savefs_node_spec stats pok solve nd acc acc' :
  stats_inv stats -> node_inv stats nd -> c_keep cfg = true ->
  savefs_node cfg stats pok solve nd acc = Some acc' ->
  exists new, sa_terms acc' = sa_terms acc ++ new /\ terms_from [nd] new /\
    (sa_num acc' = sa_num acc + Z.of_nat (cn_left nd))%Z /\ length new = cn_left nd /\ sa_leaf acc' = sa_leaf acc /\
    (forall x, good x -> unexplored n nd x -> exists t, In t new /\ in_term t x).
Proof.
  intros SI (D & LE & PA & s & o & S & O & F1 & F2 & F3 & F4 & F5 & F6 & BR & LO) K H.
  unfold savefs_node in H. rewrite S in H.
  destruct (SI _ _ S) as [ID _]. rewrite ID, S, O in H. destruct pok; [|discriminate]. cbn [negb] in H. cbv zeta in H.
  rewrite F1, F4, F5, F6, (way_code_one nd (cn_up nd) D), K in H.
  set (up := cn_up nd) in *.
  set (way0 := if up then 1%Z else 0%Z) in *.
  set (bval1 := if (1 - way0 <=? 0)%Z then branch_val (cn_value nd) up - 1 else branch_val (cn_value nd) up + 1) in *.
  assert (B2 : bval1 == branch_val (cn_value nd) (negb up)).
  { rewrite <- (other_val nd up) by (apply D). unfold bval1, way0. destruct up; reflexivity. }
  assert (W0 : (way0 =? 1)%Z = up) by (unfold way0; destruct up; reflexivity).
  assert (W1 : (1 - way0 =? 1)%Z = negb up) by (unfold way0; destruct up; reflexivity).
  assert (SEC : forall a a', setup_term true stats (ns_orig s) (cn_var nd) (1 - way0) bval1
                   (solve (term_changes o (ns_orig s) (cn_var nd) (1 - way0) bval1)) a = Some a' ->
     exists t, sa_terms a' = sa_terms a ++ [t] /\ td_ineqs t = [] /\ term_of nd (negb up) (td_changes t) /\
       (sa_num a' = sa_num a + 1)%Z /\ sa_leaf a' = sa_leaf a).
  { intros a a' Q.
    destruct (setup_term_spec true stats (ns_orig s) (cn_var nd) (1 - way0) bval1
                (solve (term_changes o (ns_orig s) (cn_var nd) (1 - way0) bval1)) a o SI O) as (a2 & E2 & C2).
    rewrite E2 in Q. inversion Q; subst a2. destruct C2 as [(A1 & A2 & t & A3 & A4 & A5 & _)|(_ & A1 & _)]; [|discriminate].
    exists t. split; [exact A3|]. split; [exact A5|]. split; [|split; [exact A1|exact A2]].
    rewrite A4. apply term_changes_of; [exact D|exact BR|exact W1|exact B2|].
    intro L1. rewrite (cur_up_one nd L1). reflexivity. }
  destruct (Nat.eqb (2 - cn_left nd) 0) eqn:E0.
  - apply Nat.eqb_eq in E0. assert (L2 : cn_left nd = 2%nat) by (destruct LE; lia).
    destruct (setup_term_spec true stats (ns_orig s) (cn_var nd) way0 (branch_val (cn_value nd) up)
                (solve (term_changes o (ns_orig s) (cn_var nd) way0 (branch_val (cn_value nd) up))) acc o SI O) as (a1 & E1 & C1).
    rewrite E1 in H. destruct C1 as [(A1 & A2 & t1 & A3 & A4 & A5 & _)|(_ & A1 & _)]; [|discriminate].
    destruct (SEC a1 acc' H) as (t2 & B3 & B4 & B5 & B6 & B7).
    assert (T1 : term_of nd up (td_changes t1)).
    { rewrite A4. apply term_changes_of; [exact D|exact BR|exact W0|reflexivity|]. intro L1. rewrite L1 in L2. discriminate. }
    exists [t1; t2]. split; [rewrite B3, A3, <- app_assoc; reflexivity|]. split.
    { intros t [<-|[<-|[]]].
      - split; [exact A5|]. exists nd, up. split; [left; reflexivity|exact T1].
      - split; [exact B4|]. exists nd, (negb up). split; [left; reflexivity|exact B5]. }
    split; [rewrite L2; lia|]. split; [rewrite L2; reflexivity|]. split; [congruence|].
    intros x G [U1 U2]. assert (SD : on_side nd up x \/ on_side nd (negb up) x).
    { destruct (sides nd x D G) as [Q|Q]; destruct up; cbn [negb]; auto. }
    destruct SD as [SD|SD].
    + exists t1. split; [left; reflexivity|]. apply (in_term_of nd up); assumption.
    + exists t2. split; [right; left; reflexivity|]. apply (in_term_of nd (negb up)); assumption.
  - apply Nat.eqb_neq in E0. assert (L1 : cn_left nd = 1%nat) by (destruct LE; lia).
    destruct (SEC acc acc' H) as (t2 & B3 & B4 & B5 & B6 & B7).
    exists [t2]. split; [exact B3|]. split.
    { intros t [<-|[]]. split; [exact B4|]. exists nd, (negb up). split; [left; reflexivity|exact B5]. }
    split; [rewrite L1; lia|]. split; [rewrite L1; reflexivity|]. split; [exact B7|].
    intros x G [U1 U2]. specialize (U2 L1). rewrite (cur_up_one nd L1) in U2.
    exists t2. split; [left; reflexivity|]. apply (in_term_of nd (negb up)); assumption.
Qed.

Lemma savefs_loop_spec stats pok solve : stats_inv stats -> c_keep cfg = true ->
  forall nodes i acc acc', (forall nd, In nd nodes -> node_inv stats nd) ->
  savefs_loop cfg stats pok solve i nodes acc = Some acc' ->
  exists new, sa_terms acc' = sa_terms acc ++ new /\ terms_from nodes new /\
    (sa_num acc' = sa_num acc + sum_left nodes)%Z /\ (Z.of_nat (length new) = sum_left nodes)%Z /\ sa_leaf acc' = sa_leaf acc /\
    (forall nd x, In nd nodes -> good x -> unexplored n nd x -> exists t, In t new /\ in_term t x).
Proof.
  intros SI K. induction nodes as [|nd r IH]; intros i acc acc' HN H; cbn [savefs_loop] in H.
  - inversion H; subst. exists []. rewrite app_nil_r. split; [reflexivity|]. split; [intros ? []|].
    unfold sum_left. cbn. split; [lia|]. split; [reflexivity|]. split; [reflexivity|]. intros ? ? [].
  - destruct (savefs_node cfg stats (pok i) (solve i) nd acc) as [a1|] eqn:E; [|discriminate].
    destruct (savefs_node_spec _ _ _ _ _ _ SI (HN nd (or_introl eq_refl)) K E) as (new1 & A1 & A2 & A3 & A4 & A5 & A6).
    destruct (IH (S i) a1 acc' (fun nd' Q => HN nd' (or_intror Q)) H) as (new2 & B1 & B2 & B3 & B4 & B5 & B6).
    assert (J' : (sum_left (nd :: r) = Z.of_nat (cn_left nd) + sum_left r)%Z) by reflexivity.
    exists (new1 ++ new2). split; [rewrite B1, A1, <- app_assoc; reflexivity|]. split.
    { intros t HT. apply in_app_or in HT. destruct HT as [HT|HT].
      - destruct (A2 t HT) as (Q1 & nd' & up & [<-|[]] & Q3). split; [exact Q1|]. exists nd, up. split; [left; reflexivity|exact Q3].
      - destruct (B2 t HT) as (Q1 & nd' & up & Q2 & Q3). split; [exact Q1|]. exists nd', up. split; [right; exact Q2|exact Q3]. }
    split; [lia|]. split; [rewrite app_length, Nat2Z.inj_add, A4, B4; lia|]. split; [congruence|].
    intros nd' x [<-|I] G U.
    + destruct (A6 x G U) as (t & T1 & T2). exists t. split; [apply in_or_app; left; exact T1|exact T2].
    + destruct (B6 nd' x I G U) as (t & T1 & T2). exists t. split; [apply in_or_app; right; exact T1|exact T2].
Qed.

Lemma savefs_pruned_spec stats : stats_inv stats -> c_keep cfg = true ->
  forall pruned acc acc', 
  savefs_pruned cfg stats pruned acc = Some acc' ->
  exists new, sa_terms acc' = sa_terms acc ++ new /\ length new = length pruned /\
    (sa_num acc' = sa_num acc + Z.of_nat (length pruned))%Z /\ sa_leaf acc' = sa_leaf acc /\
    (forall t, In t new -> td_feasible t = false) /\
    (forall p cs x, In p pruned -> pruned_changes stats p cs -> (forall c, In c cs -> sat_change c x) -> exists t, In t new /\ in_term t x).
Proof.
  intros SI K. induction pruned as [|p r IH]; intros acc acc' H; cbn [savefs_pruned] in H.
  - inversion H; subst. exists []. rewrite app_nil_r. split; [reflexivity|]. split; [reflexivity|]. split; [cbn; lia|].
    split; [reflexivity|]. split; [intros ? []|]. intros ? ? ? [].
  - destruct (ns_parent p) as [id|] eqn:PP; [|discriminate]. destruct (nth_error stats id) as [s|] eqn:S; [|discriminate].
    rewrite K in H.
    destruct (nth_error stats (ns_orig s)) as [o|] eqn:O.
    2:{ unfold setup_term in H. rewrite O in H. discriminate. }
    destruct (setup_term_spec true stats (ns_orig s) (ns_var s) (if (ns_way s =? 1)%Z then 1 else 0)%Z (ns_bval s) None acc o SI O)
      as (a1 & E1 & C1). rewrite E1 in H.
    destruct C1 as [(A1 & A2 & t & A3 & A4 & A5 & A6)|(_ & A1 & _)]; [|discriminate].
    destruct (IH a1 acc' H) as (new & B1 & B2 & B3 & B4 & B5 & B6).
    exists (t :: new). split; [rewrite B1, A3, <- app_assoc; reflexivity|]. split; [cbn; congruence|].
    split; [cbn [length]; lia|]. split; [congruence|]. split.
    { intros t' [<-|I]; [|apply B5, I]. destruct (td_feasible t); [exfalso; apply (proj1 A6 eq_refl); reflexivity|reflexivity]. }
    intros p' cs x [<-|I] PC SC.
    + exists t. split; [left; reflexivity|]. destruct PC as (id' & s' & o' & P1 & P2 & P3 & P4).
      rewrite PP in P1. inversion P1; subst id'. rewrite S in P2. inversion P2; subst s'. rewrite O in P3. inversion P3; subst o'.
      split; [|rewrite A5; intros ? []]. rewrite A4. subst cs. exact SC.
    + destruct (B6 p' cs x I PC SC) as (t' & T1 & T2). exists t'. split; [right; exact T1|exact T2].
Qed.

(** ** Preservation *)
Lemma inv_ext st st' : h_lo st' = h_lo st -> h_up st' = h_up st -> h_stats st' = h_stats st -> h_pruned st' = h_pruned st ->
  h_count2 st' = h_count2 st -> (forall nd, In nd (h_tree st') <-> In nd (h_tree st)) -> inv st -> inv st'.
Proof.
  intros E1 E2 E3 E4 E5 E6 (A & B & C & D & F & G & H & I & J). unfold inv. rewrite E1, E2, E3, E4, E5.
  split; [exact A|]. split; [exact B|]. split; [exact C|]. split; [exact D|]. split; [exact F|]. split; [exact G|].
  split; [intros nd Q; apply H, E6, Q|]. split; [exact I|]. intros x X. destruct (J x X) as [(nd & J1 & J2)|J1]; [left|right; exact J1].
  exists nd. split; [apply E6, J1|exact J2].
Qed.

Lemma perm_in {A} (l l' : list A) : Permutation l l' -> forall a, In a l' <-> In a l.
Proof. intros P a. split; apply Permutation_in; [apply Permutation_sym|]; exact P. Qed.

Lemma first_stats_inv st ord st1 : inv0 st \/ inv st -> Permutation (h_tree st) ord ->
  first_stats cfg (set_tree st ord) = Some st1 ->
  inv st1 /\ h_tree st1 = ord /\ h_isol st1 = h_isol st /\ h_end st1 = h_end st.
Proof.
  intros [I0|I] P H; unfold first_stats in H; cbn [h_count2 set_tree h_tree h_stats h_lo h_up] in H.
  - destruct I0 as (A & B & C & D & E & F & G & J). rewrite C, A, D, E in H. cbn [Nat.eqb] in H.
    destruct ord as [|nd r]; [discriminate|].
    assert (R : nd = root /\ r = []).
    { pose proof (Permutation_length P) as L. cbn [length] in L. split; [|destruct r; [reflexivity|cbn in L; lia]].
      apply F. apply (Permutation_in nd (Permutation_sym P)). left; reflexivity. }
    destruct R as [-> ->]. destruct Hroot as (R1 & R2 & R3 & R4).
    destruct (setNodeStatistics _ _ _ _ _ _ _ _ _) as [s|] eqn:S; [|discriminate].
    destruct (sns_fields _ _ _ _ _ _ _ _ _ S) as (S1 & S2 & S3 & S4 & S5 & S6 & S7 & S8).
    rewrite R2 in S5, S7, S8. cbn [Nat.sub Nat.eqb] in S5, S7, S8. fold n in S7. fold c0 in S7.
    inversion H; subst st1; clear H. cbn [app] in *. rewrite S7.
    split; [|split; [reflexivity|split; reflexivity]].
    unfold inv. cbn [h_stats h_count2 h_lo h_up h_tree h_pruned]. cbn [h_pruned set_tree]. rewrite B.
    split; [discriminate|]. split; [reflexivity|]. split.
    { intros i t T. destruct i as [|[|i]]; cbn in T; [|discriminate|discriminate]. inversion T; subst t. rewrite S8, S2, R1, R3.
      split; [reflexivity|discriminate]. }
    split; [exists s; split; [reflexivity|exact S7]|]. split; [reflexivity|]. split; [reflexivity|]. split.
    { intros nd [<-|[]]. split; [exact R4|]. split; [right; exact R2|]. split; [rewrite R3; discriminate|].
      exists s, s. rewrite S1, R1. rewrite (cur_up_two root R2) in S4, S6. rewrite R2, (cur_up_two root R2).
      repeat apply conj; try reflexivity; try assumption. left. repeat apply conj; reflexivity. }
    split; [intros ? []|]. intros x X. left. destruct (J x X) as (nd & N1 & N2). exists nd. split; [|exact N2]. left.
    symmetry. apply F, N1.
  - destruct (Nat.eqb (h_count2 st) 1) eqn:C1.
    + exfalso. apply Nat.eqb_eq in C1. destruct I as (A & B & C & D & E & F & G & _).
      destruct ord as [|nd r]; [discriminate|].
      assert (N : node_inv (h_stats st) nd) by (apply G, (Permutation_in nd (Permutation_sym P)); left; reflexivity).
      destruct N as (_ & LE & _ & s & o & S & _). apply nth_lt in S. rewrite B, C1 in S.
      destruct (setNodeStatistics _ _ _ _ _ _ _ _ _) as [t|] eqn:T; [|discriminate].
      destruct (sns_new _ _ _ _ _ _ _ _ _ C T) as [Q|Q]; [|contradiction].
      destruct (sns_fields _ _ _ _ _ _ _ _ _ T) as (_ & _ & _ & _ & _ & _ & _ & T8). rewrite Q, B, C1 in T8.
      destruct (Nat.eqb (2 - cn_left nd) 0); lia.
    + inversion H; subst st1. split; [|split; [reflexivity|split; reflexivity]].
      apply (inv_ext st); try reflexivity; [|exact I]. cbn [h_tree set_tree]. apply perm_in, P.
Qed.

Lemma first_stats_count st st1 : first_stats cfg st = Some st1 -> count_leaves cfg st1 = count_leaves cfg st.
Proof.
  unfold first_stats. destruct (Nat.eqb (h_count2 st) 1); [|intro H; injection H as <-; reflexivity].
  destruct (h_tree st) as [|nd r] eqn:T; [discriminate|]. destruct (setNodeStatistics _ _ _ _ _ _ _ _ _); [|discriminate].
  intro H; injection H as <-. unfold count_leaves, isol_count. cbn [h_pruned h_isol h_tree]. rewrite T. reflexivity.
Qed.

Lemma fixup_sync st slo sup : inv st -> fixup cfg st slo sup = Some st.
Proof.
  intros (A & B & C & _). unfold fixup. destruct (c_nochoose cfg); cbn [negb]; [|reflexivity].
  destruct (rev (h_stats st)) as [|l b] eqn:R; [exfalso; apply A; rewrite <- (rev_involutive (h_stats st)), R; reflexivity|].
  apply rev_last in R. assert (L : nth_error (h_stats st) (length (rev b)) = Some l) by (rewrite R; apply nth_snoc).
  assert (Q : h_count2 st = S (ns_id l)).
  { destruct (C _ _ L) as [-> _]. rewrite <- B. rewrite R at 1. rewrite app_length. cbn [length]. lia. }
  rewrite Q, Nat.eqb_refl. reflexivity.
Qed.

(** Result of saving in the default mode. *)
Lemma save_spec st timeup pok solve st' status :
  inv st -> (forall i, solve_ok (solve i)) -> c_keep cfg = false -> h_leaf st = count_leaves cfg st ->
  saveInformation cfg st timeup pok solve = Some (st', status) ->
  inv st' /\ h_end st' = h_end st /\ h_isol st' = h_isol st /\
  d_common (h_disj st') = c0 /\ d_common_ineqs (h_disj st') = [] /\ d_isol (h_disj st') = h_isol st /\
  (Z.of_nat (d_num_terms (h_disj st')) = Z.of_nat (length (d_terms (h_disj st'))) + isol_count st)%Z /\
  terms_from (h_tree st) (d_terms (h_disj st')) /\ (h_leaf st' <= h_leaf st)%Z /\
  (status = true -> timeup = false /\ (h_leaf st' < c_max cfg)%Z) /\
  (status = false -> h_leaf st' = Z.of_nat (d_num_terms (h_disj st')) /\
     (timeup = true \/ (c_max cfg < 2 * Z.of_nat (d_num_terms (h_disj st')))%Z) /\
     forall x, good x -> in_disj (h_disj st') x).
Proof.
  intros I SO K LF H. unfold saveInformation in H. cbv zeta in H.
  set (acc0 := {| sa_terms := []; sa_num := isol_count st; sa_leaf := h_leaf st; sa_down := None; sa_up := None |}) in *.
  destruct (save_loop cfg (h_stats st) timeup pok solve 0 (h_tree st) false acc0) as [[acc sl]|] eqn:L; [|discriminate].
  injection H as <- <-. pose proof I as (A & B & C & (s0 & D0 & D1) & E & F & G & PI & J).
  destruct (save_loop_spec (h_stats st) timeup pok solve C SO K (h_tree st) 0 acc0 acc sl G) with (2 := L)
    as (new & N1 & N2 & N3 & N4 & N5 & N6).
  { cbn [sa_leaf sa_num acc0]. rewrite LF. unfold count_leaves. rewrite K. reflexivity. }
  unfold acc0 in N1, N3, N6. cbn [sa_terms app sa_num sa_leaf] in N1, N3, N6.
  assert (IC : (0 <= isol_count st)%Z) by (unfold isol_count; destruct (h_isol st); lia).
  assert (NT : Z.of_nat (Z.to_nat (sa_num acc)) = sa_num acc) by (apply Z2Nat.id; lia).
  cbn [h_end h_isol h_disj h_leaf with_saved saved_disj d_common d_common_ineqs d_isol d_num_terms d_terms].
  split; [apply (inv_ext st); try reflexivity; exact I|]. split; [reflexivity|]. split; [reflexivity|].
  assert (CM : match h_stats st with s :: _ => ns_changes s | [] => [] end = c0).
  { destruct (h_stats st) as [|s r]; [discriminate|]. cbn in D0. inversion D0; subst s0. exact D1. }
  split; [exact CM|]. split; [reflexivity|]. split; [reflexivity|].
  split; [rewrite NT, N1; lia|]. split; [rewrite N1; exact N2|]. split; [exact N6|].
  split.
  - intro Q. destruct sl.
    + destruct (N5 eq_refl) as [N7 N8]. split; [exact N7|lia].
    + destruct (N4 eq_refl) as [N7 _]. rewrite orb_false_l in Q. apply andb_true_iff in Q. destruct Q as [Q1 Q2]. apply Z.leb_le in Q2.
      split; [destruct timeup; [discriminate|reflexivity]|]. assert (Q3 : (2 * sa_num acc <= c_max cfg)%Z) by exact Q2. lia.
  - intro Q. apply orb_false_iff in Q. destruct Q as [-> Q]. destruct (N4 eq_refl) as [N7 N8].
    split; [rewrite NT; exact N7|]. split.
    { destruct timeup; [left; reflexivity|right]. cbn in Q. apply Z.leb_gt in Q. rewrite NT. exact Q. }
    intros x X. split.
    + split; cbn [d_common d_common_ineqs]; [|intros ? []]. intros c HC. cbn [saved_disj d_common] in HC. rewrite CM in HC.
      exact (sat_changed _ _ _ _ _ _ (Hgoodroot x X) HC).
    + destruct (J x X) as [(nd & J1 & J2)|(J1 & _)]; [|congruence].
      destruct (N8 nd x J1 X J2) as (t & T1 & T2). exists t. cbn [d_terms saved_disj]. rewrite N1. split; [exact T1|exact T2].
Qed.

(** Result of saving when pruned nodes are kept. *)
Lemma savefs_spec st pok solve st' :
  inv st -> c_keep cfg = true -> h_leaf st = count_leaves cfg st ->
  saveInformationFromStats cfg st pok solve = Some st' ->
  d_common (h_disj st') = c0 /\ d_common_ineqs (h_disj st') = [] /\
  h_leaf st' = Z.of_nat (d_num_terms (h_disj st')) /\ d_num_terms (h_disj st') = length (d_terms (h_disj st')) /\
  (exists a p, d_terms (h_disj st') = a ++ p /\ terms_from (h_tree st) a /\ length p = length (h_pruned st) /\
     (forall t, In t p -> td_feasible t = false)) /\
  (forall x, good x -> in_disj (h_disj st') x).
Proof.
  intros I K LF H. unfold saveInformationFromStats in H. cbv zeta in H.
  set (acc0 := {| sa_terms := []; sa_num := 0; sa_leaf := h_leaf st; sa_down := None; sa_up := None |}) in *.
  destruct (savefs_loop cfg (h_stats st) pok solve 0 (h_tree st) acc0) as [a1|] eqn:L; [|discriminate].
  destruct (savefs_pruned cfg (h_stats st) (h_pruned st) a1) as [a2|] eqn:L2; [|discriminate].
  inversion H; subst st'; clear H. destruct I as (A & B & C & (s0 & D0 & D1) & E & F & G & PI & J).
  destruct (savefs_loop_spec _ pok solve C K (h_tree st) 0 acc0 a1 G L) as (new & N1 & N2 & N3 & N3' & N4 & N5).
  destruct (savefs_pruned_spec _ C K (h_pruned st) a1 a2 L2) as (pn & M1 & M2 & M3 & M4 & M5 & M6).
  unfold acc0 in N1, N3, N4. cbn [sa_terms app sa_num sa_leaf] in N1, N3, N4.
  cbn [h_leaf h_disj with_saved saved_disj d_common d_common_ineqs d_num_terms d_terms].
  assert (CM : match h_stats st with s :: _ => ns_changes s | [] => [] end = c0).
  { destruct (h_stats st) as [|s r]; [discriminate|]. cbn in D0. inversion D0; subst s0. exact D1. }
  split; [exact CM|]. split; [reflexivity|].
  assert (T : sa_terms a2 = new ++ pn) by (rewrite M1, N1; reflexivity).
  assert (TN : (sa_num a2 = Z.of_nat (length (new ++ pn)))%Z) by (rewrite app_length, Nat2Z.inj_add; lia).
  split.
  { rewrite TN, Nat2Z.id, app_length, Nat2Z.inj_add, N3', M2, M4, N4, LF. unfold count_leaves. rewrite K. unfold sum_left. lia. }
  split; [rewrite TN, T, Nat2Z.id; reflexivity|].
  split.
  { exists new, pn. split; [exact T|]. split; [exact N2|]. split; [exact M2|exact M5]. }
  intros x X. split.
  - split; cbn [d_common d_common_ineqs]; [|intros ? []]. intros c HC. cbn [saved_disj d_common] in HC. rewrite CM in HC.
    exact (sat_changed _ _ _ _ _ _ (Hgoodroot x X) HC).
  - cbn [saved_disj d_terms]. rewrite T. destruct (J x X) as [(nd & J1 & J2)|(_ & p & cs & J1 & J2 & J3)].
    + destruct (N5 nd x J1 X J2) as (t & T1 & T2). exists t. split; [apply in_or_app; left; exact T1|exact T2].
    + destruct (M6 p cs x J1 J2 J3) as (t & T1 & T2). exists t. split; [apply in_or_app; right; exact T1|exact T2].
Qed.

Lemma in_remove {A} k (l : list A) a b : nth_error l k = Some a -> In b l -> b = a \/ In b (remove_nth k l).
Proof.
  intros N H. rewrite <- (firstn_skipn k l) in H. unfold remove_nth.
  assert (E : skipn k l = a :: skipn (S k) l).
  { clear H. revert l N. induction k as [|k IH]; intros [|c l] N; try discriminate; [inversion N; reflexivity|].
    cbn [nth_error] in N. cbn [skipn]. rewrite (IH l N). reflexivity. }
  rewrite E in H. apply in_app_or in H. destruct H as [H|[H|H]]; [right; apply in_or_app; left; exact H|left; symmetry; exact H|
    right; apply in_or_app; right; exact H].
Qed.
Lemma remove_in {A} k (l : list A) b : In b (remove_nth k l) -> In b l.
Proof.
  unfold remove_nth. intro H. rewrite <- (firstn_skipn k l). apply in_app_or in H. apply in_or_app.
  destruct H as [H|H]; [left; exact H|right].
  revert l H. induction k as [|k IH]; intros [|c l] H; cbn [skipn] in *; try exact H; [right; exact H|]. apply IH, H.
Qed.

(** The branch of [nd] explored next, as a term. *)
Lemma next_term stats nd s o x : 
  decision_ok n ints (cn_var nd) (cn_value nd) (cn_dcode nd) ->
  box_rec nd (ns_orig s) o -> ns_var s = cn_var nd -> ns_way s = way_code nd (cur_up nd) ->
  ns_bval s = branch_val (cn_value nd) (cur_up nd) -> nth_error stats (cn_num nd) = Some s -> nth_error stats (ns_orig s) = Some o ->
  next_branch n nd x ->
  forall c, In c (term_changes o (ns_orig s) (ns_var s) (way01 (ns_way s)) (ns_bval s)) -> sat_change c x.
Proof.
  intros D B V W BV S O [X1 X2]. rewrite V, W, BV. unfold way01. rewrite (way_code_one nd _ D).
  apply (term_of_sat nd (cur_up nd)); [|exact X1|exact X2].
  apply term_changes_of; [exact D|exact B| |reflexivity|reflexivity]. destruct (cur_up nd); reflexivity.
Qed.

(** Adding the statistics of the node put back. *)
Definition same_branch (s : nodestat) (nd : cnode) : Prop :=
  ns_orig s = cn_num nd /\ ns_parent s = cn_parent nd /\ ns_var s = cn_var nd /\ ns_way s = way_code nd (cur_up nd) /\
  ns_bi s = (2 - cn_left nd)%nat /\ ns_bval s = branch_val (cn_value nd) (cur_up nd).

Lemma parent_back stats nd s : stats_inv stats -> node_inv stats nd -> cn_left nd = 2%nat ->
  same_branch s (one_less nd) -> ns_id s = length stats ->
  stats_inv (stats ++ [s]) /\ node_inv (stats ++ [s]) (renumber (one_less nd) (length stats)).
Proof.
  intros SI (D & LE & PA & t & o & S & O & F1 & F2 & F3 & F4 & F5 & F6 & BR & LO) L2 (S1 & S2 & S3 & S4 & S5 & S6) ID.
  pose proof (nth_lt _ _ _ S) as NL. specialize (LO L2). rewrite LO in O, BR. rewrite S in O. inversion O; subst o.
  split.
  - apply stats_inv_snoc; [exact SI|exact ID|]. rewrite S2. cbn. intros p Q. specialize (PA p Q). lia.
  - split; [exact D|]. split; [left; cbn; rewrite L2; reflexivity|]. split; [cbn; intros p Q; specialize (PA p Q); lia|].
    exists s, t. cbn [cn_num renumber]. split; [apply nth_snoc|]. rewrite S1. cbn [cn_num one_less].
    split; [apply nth_app, S|]. split; [exact S3|]. split; [exact S4|]. split; [exact S6|]. split; [exact S5|].
    split; [exact F5|]. split; [exact F6|]. split; [|cbn [cn_left renumber one_less]; rewrite L2; discriminate].
    destruct BR as [B|B]; [left; exact B|right; exact B].
Qed.

(** The next state in terms of the old one. *)
Lemma step_inv st k nd st' : inv st -> nth_error (h_tree st) k = Some nd ->
  h_lo st' = h_lo st -> h_up st' = h_up st ->
  length (h_stats st') = h_count2 st' -> stats_inv (h_stats st') -> (exists l, h_stats st' = h_stats st ++ l) ->
  (forall m, In m (h_tree st') -> In m (remove_nth k (h_tree st)) \/ node_inv (h_stats st') m) ->
  (exists l, h_pruned st' = h_pruned st ++ l /\ forall p, In p l -> exists cs, pruned_changes (h_stats st') p cs) ->
  (forall m, In m (remove_nth k (h_tree st)) -> In m (h_tree st')) ->
  (forall x, good x -> unexplored n nd x -> (exists m, In m (h_tree st') /\ unexplored n m x) \/
     (c_keep cfg = true /\ exists p cs, In p (h_pruned st') /\ pruned_changes (h_stats st') p cs /\ forall c, In c cs -> sat_change c x)) ->
  inv st'.
Proof.
  intros (A & B & C & D & E & F & G & PI & J) NK E1 E2 Q2 Q3 [l SL] Q4 (lp & PL & Q5) Q6 Q7. unfold inv.
  split; [rewrite SL; destruct (h_stats st); [contradiction|discriminate]|]. split; [exact Q2|]. split; [exact Q3|]. split.
  { destruct D as (d0 & D0 & D1). exists d0. split; [rewrite SL; apply nth_app, D0|exact D1]. }
  split; [rewrite E1; exact E|]. split; [rewrite E2; exact F|]. split.
  { intros m M. destruct (Q4 m M) as [M'|M']; [rewrite SL; apply node_inv_app, G, (remove_in k), M'|exact M']. }
  split.
  { intros p P. rewrite PL in P. apply in_app_or in P. destruct P as [P|P]; [|apply Q5, P]. destruct (PI p P) as [cs CS].
    exists cs. rewrite SL. apply pruned_app, CS. }
  intros x X. destruct (J x X) as [(m & M1 & M2)|(K & p & cs & P1 & P2 & P3)].
  - destruct (in_remove k (h_tree st) nd m NK M1) as [->|M3]; [apply Q7; assumption|]. left. exists m. split; [apply Q6, M3|exact M2].
  - right. split; [exact K|]. exists p, cs. split; [rewrite PL; apply in_or_app; left; exact P1|]. split; [rewrite SL; apply pruned_app, P2|exact P3].
Qed.

Lemma len_snoc {A} (l : list A) a : length (l ++ [a]) = S (length l).
Proof. rewrite app_length. cbn. lia. Qed.

Lemma either_side nd x : decision_ok n ints (cn_var nd) (cn_value nd) (cn_dcode nd) -> good x ->
  on_side nd (cur_up nd) x \/ on_side nd (negb (cur_up nd)) x.
Proof. intros D X. destruct (sides nd x D X) as [Q|Q]; destruct (cur_up nd); cbn [negb]; auto. Qed.

Lemma other_side nd num x : cn_left nd = 2%nat -> in_bounds n (cn_lo nd) (cn_hi nd) x -> on_side nd (negb (cur_up nd)) x ->
  unexplored n (renumber (one_less nd) num) x.
Proof.
  intros L2 U1 SD. split; [exact U1|]. intros _. rewrite (cur_up_two nd L2) in SD.
  unfold cur_up. cbn [cn_left renumber one_less]. rewrite L2. cbn [Nat.sub Nat.eqb]. exact SD.
Qed.

(** The statistics entry of a created child. *)
Definition child_stat (s : nodestat) (ch : cnode) : Prop :=
  same_branch s ch /\ ns_id s = cn_num ch /\ (ns_changes s = cb ch \/ ns_changes s = cb ch ++ cb ch).

Lemma created_inv st k nd c s st' : inv st -> nth_error (h_tree st) k = Some nd -> child_allowed n ints good nd c ->
  let ch := mk_child c (cn_num nd) (h_count2 st) in
  child_stat s ch -> h_lo st' = h_lo st -> h_up st' = h_up st -> h_pruned st' = h_pruned st ->
  ((cn_left nd = 1%nat /\ h_stats st' = h_stats st ++ [s] /\ h_count2 st' = S (h_count2 st) /\
    forall m, In m (h_tree st') <-> In m (remove_nth k (h_tree st)) \/ m = ch) \/
   (cn_left nd = 2%nat /\ exists sp, h_stats st' = (h_stats st ++ [s]) ++ [sp] /\ same_branch sp (one_less nd) /\
    ns_id sp = S (h_count2 st) /\ h_count2 st' = S (S (h_count2 st)) /\
    forall m, In m (h_tree st') <-> In m (remove_nth k (h_tree st)) \/ m = ch \/ m = renumber (one_less nd) (S (h_count2 st)))) ->
  inv st'.
Proof.
  intros I NK [CD CG] ch ((S1 & S2 & S3 & S4 & S5 & S6) & S8 & S7) E1 E2 E3 CASES.
  pose proof I as (A & B & C & D & E & F & G & PI & J).
  assert (NI : node_inv (h_stats st) nd) by (apply G, (nth_error_In _ k NK)).
  pose proof NI as (DD & LE & PA & s0 & o0 & S0 & O0 & F1 & F2 & F3 & F4 & F5 & F6 & BR & LO).
  pose proof (nth_lt _ _ _ S0) as NUM.
  assert (ID : ns_id s = length (h_stats st)) by (rewrite S8, B; reflexivity).
  assert (SI1 : stats_inv (h_stats st ++ [s])).
  { apply stats_inv_snoc; [exact C|exact ID|]. rewrite S2. intros p Q. inversion Q; subst p. exact NUM. }
  assert (NC : node_inv (h_stats st ++ [s]) ch).
  { split; [exact CD|]. split; [right; reflexivity|]. split; [cbn; intros p Q; inversion Q; subst p; lia|].
    exists s, s. rewrite S1. cbn [cn_num ch mk_child]. rewrite <- B, nth_snoc.
    repeat apply conj; try reflexivity; try assumption; try (rewrite B; reflexivity).
    right. split; [|exact S7]. destruct (h_stats st); [contradiction|cbn; lia]. }
  assert (CC : forall x, good x -> next_branch n nd x -> unexplored n ch x).
  { intros x X NB. split; [exact (CG x X NB)|]. cbn. discriminate. }
  destruct CASES as [(L & SS & C2 & TT)|(L & sp & SS & SB & SID & C2 & TT)].
  - apply (step_inv st k nd st' I NK E1 E2); rewrite ?SS, ?C2.
    + rewrite len_snoc, B. reflexivity.
    + exact SI1.
    + eexists; reflexivity.
    + intros m M. apply TT in M. destruct M as [M| ->]; [left; exact M|right; exact NC].
    + exists []. rewrite app_nil_r. split; [exact E3|intros ? []].
    + intros m M. apply TT. left. exact M.
    + intros x X [U1 U2]. left. exists ch. split; [apply TT; right; reflexivity|]. apply CC; [exact X|]. split; [exact U1|exact (U2 L)].
  - destruct (parent_back _ nd sp SI1 (node_inv_app _ _ _ NI) L SB) as [SI2 NP]; [rewrite len_snoc, B; exact SID|].
    rewrite len_snoc, B in NP.
    apply (step_inv st k nd st' I NK E1 E2); rewrite ?SS, ?C2.
    + rewrite !len_snoc, B. reflexivity.
    + exact SI2.
    + rewrite <- app_assoc. eexists; reflexivity.
    + intros m M. apply TT in M. destruct M as [M|[-> | ->]]; [left; exact M|right; apply node_inv_app, NC|right; exact NP].
    + exists []. rewrite app_nil_r. split; [exact E3|intros ? []].
    + intros m M. apply TT. left. exact M.
    + intros x X [U1 U2]. left. destruct (either_side nd x DD X) as [SD|SD].
      * exists ch. split; [apply TT; right; left; reflexivity|]. apply CC; [exact X|]. split; assumption.
      * exists (renumber (one_less nd) (S (h_count2 st))). split; [apply TT; right; right; reflexivity|]. apply other_side; assumption.
Qed.

Lemma sns_same olo oup stats nd c2 wc slo sup s : setNodeStatistics n olo oup stats nd c2 wc slo sup = Some s -> same_branch s nd.
Proof.
  intro H. destruct (sns_fields _ _ _ _ _ _ _ _ _ H) as (S1 & S2 & S3 & S4 & S5 & S6 & _). repeat apply conj; assumption.
Qed.

Lemma in_snoc2 {A} (l : list A) a m : In m (l ++ [a]) <-> In m l \/ m = a.
Proof.
  split.
  - intro H. apply in_app_or in H. destruct H as [H|[H|[]]]; auto.
  - intros [H| ->]; apply in_or_app; [left; exact H|right; left; reflexivity].
Qed.
Lemma in_snoc3 {A} (l : list A) a b m : In m (l ++ [a] ++ [b]) <-> In m l \/ m = a \/ m = b.
Proof.
  split.
  - intro H. apply in_app_or in H. destruct H as [H|[H|[H|[]]]]; auto.
  - intros [H|[-> | ->]]; apply in_or_app; [left; exact H|right; left; reflexivity|right; right; left; reflexivity].
Qed.

Lemma branch_inv st k out st' : inv st ->
  (forall nd, nth_error (h_tree st) k = Some nd ->
     match out with
     | Created c => child_allowed n ints good nd c
     | Pruned _ _ _ _ => c_keep cfg = false -> forall x, good x -> ~ next_branch n nd x
     | Misjudged _ _ _ => False
     end) -> ev_branch cfg st k out = EvGo st' ->
  inv st' /\ h_leaf st' = h_leaf st /\ h_end st' = h_end st /\ h_disj st' = h_disj st.
Proof.
  intros I AL H. unfold ev_branch in H. destruct (nth_error (h_tree st) k) as [nd|] eqn:NK; [|discriminate].
  specialize (AL nd eq_refl).
  destruct (Nat.eqb (cn_left nd) 0) eqn:L0; [discriminate|]. destruct (_ || _)%bool eqn:ST in H; [discriminate|]. cbv zeta in H.
  pose proof I as (A & B & C & D & E & F & G & PI & J).
  assert (NI : node_inv (h_stats st) nd) by (apply G, (nth_error_In _ k NK)).
  pose proof NI as (DD & LE & PA & s0 & o0 & S0 & O0 & F1 & F2 & F3 & F4 & F5 & F6 & BR & LO).
  pose proof (nth_lt _ _ _ S0) as NUM. apply Nat.eqb_neq in L0.
  destruct out as [c|integ slo sup objv|c integ objv]; [| |contradiction].
  - (* created *)
    set (ch := mk_child c (cn_num nd) (h_count2 st)) in *.
    destruct (setNodeStatistics _ _ _ _ ch _ _ _ _) as [s|] eqn:SE; [|discriminate].
    assert (CS : child_stat s ch).
    { split; [exact (sns_same _ _ _ _ _ _ _ _ _ SE)|]. destruct (sns_fields _ _ _ _ _ _ _ _ _ SE) as (_ & _ & _ & _ & _ & _ & S7 & S8).
      cbn [cn_left ch mk_child Nat.sub Nat.eqb] in S7, S8. rewrite E, F in S7. split; [exact S8|left; exact S7]. }
    destruct (Nat.eqb (cn_left (one_less nd)) 0) eqn:L1; cbn [cn_left one_less] in L1.
    + injection H as <-. apply Nat.eqb_eq in L1. split; [|split; [reflexivity|split; reflexivity]].
      apply (created_inv st k nd c s); try reflexivity; try assumption. left.
      split; [lia|]. split; [reflexivity|]. split; [cbn; lia|]. intro m. apply in_snoc2.
    + apply Nat.eqb_neq in L1.
      destruct (setNodeStatistics _ _ _ (_ ++ _) (one_less nd) _ _ _ _) as [sp|] eqn:SP; [|discriminate].
      injection H as <-. split; [|split; [reflexivity|split; reflexivity]].
      assert (SI1 : stats_inv (h_stats st ++ [s])).
      { apply stats_inv_snoc; [exact C| |].
        - destruct CS as (_ & Q & _). rewrite Q, B. reflexivity.
        - destruct CS as ((_ & Q & _) & _). rewrite Q. intros p Y. inversion Y; subst p. exact NUM. }
      apply (created_inv st k nd c s); try reflexivity; try assumption. right.
      split; [destruct LE; lia|]. exists sp. split; [reflexivity|]. split; [exact (sns_same _ _ _ _ _ _ _ _ _ SP)|]. split.
      { destruct (sns_new _ _ _ _ _ _ _ _ _ SI1 SP) as [Q|Q]; [rewrite Q, len_snoc, B; reflexivity|].
        destruct (h_stats st); discriminate. }
      split; [cbn; lia|]. intro m. cbn [h_tree]. replace (h_count2 st + 1)%nat with (S (h_count2 st)) by lia. apply in_snoc3.
  - (* pruned *)
    set (pn := setPrunedNodeStatistics (c_n cfg) (h_lo st) (h_up st) nd (h_count2 st) integ slo sup objv) in *.
    assert (PC : forall l, pruned_changes (h_stats st ++ l) pn (term_changes o0 (ns_orig s0) (ns_var s0) (way01 (ns_way s0)) (ns_bval s0))).
    { intro l. apply pruned_app. exists (cn_num nd), s0, o0. repeat apply conj; try reflexivity; assumption. }
    assert (CN : forall x, good x -> next_branch n nd x -> c_keep cfg = true /\
       (forall c, In c (term_changes o0 (ns_orig s0) (ns_var s0) (way01 (ns_way s0)) (ns_bval s0)) -> sat_change c x)).
    { intros x X NB. destruct (c_keep cfg); [split; [reflexivity|]|exfalso; exact (AL eq_refl x X NB)].
      exact (next_term _ nd s0 o0 x DD BR F1 F2 F3 S0 O0 NB). }
    destruct (Nat.eqb (cn_left (one_less nd)) 0) eqn:L1; cbn [cn_left one_less] in L1.
    + injection H as <-. split; [|split; [reflexivity|split; reflexivity]].
      apply Nat.eqb_eq in L1. assert (L2 : cn_left nd = 1%nat) by lia.
      apply (step_inv st k nd _ I NK); try reflexivity; cbn [h_stats h_count2 h_tree h_pruned].
      * lia.
      * exact C.
      * exists []. rewrite app_nil_r. reflexivity.
      * intros m M. rewrite app_nil_r in M. left. exact M.
      * exists [pn]. split; [reflexivity|]. intros p [<-|[]]. eexists. rewrite <- (app_nil_r (h_stats st)). apply PC.
      * intros m M. rewrite app_nil_r. exact M.
      * intros x X [U1 U2]. right. destruct (CN x X) as [K SC]; [split; [exact U1|exact (U2 L2)]|]. split; [exact K|].
        exists pn. eexists. split; [apply in_or_app; right; left; reflexivity|]. split; [|exact SC].
        rewrite <- (app_nil_r (h_stats st)). apply PC.
    + apply Nat.eqb_neq in L1. assert (L2 : cn_left nd = 2%nat) by (destruct LE; lia).
      destruct (setNodeStatistics _ _ _ _ (one_less nd) _ _ _ _) as [sp|] eqn:SP; [|discriminate].
      injection H as <-. split; [|split; [reflexivity|split; reflexivity]].
      destruct (sns_new _ _ _ _ _ _ _ _ _ C SP) as [ID|ID]; [|contradiction].
      destruct (parent_back _ nd sp C NI L2 (sns_same _ _ _ _ _ _ _ _ _ SP) ID) as [SI2 NP].
      rewrite B in NP. rewrite Nat.add_0_r.
      apply (step_inv st k nd _ I NK); try reflexivity; cbn [h_stats h_count2 h_tree h_pruned].
      * rewrite len_snoc, B. reflexivity.
      * exact SI2.
      * eexists; reflexivity.
      * intros m M. apply in_app_or in M. destruct M as [M|M]; [left; exact M|right].
        cbn [app In] in M. destruct M as [<-|[]]. exact NP.
      * exists [pn]. split; [reflexivity|]. intros p [<-|[]]. eexists. apply PC.
      * intros m M. apply in_or_app. left. exact M.
      * intros x X [U1 U2]. destruct (either_side nd x DD X) as [SD|SD].
        -- right. destruct (CN x X) as [K SC]; [split; assumption|]. split; [exact K|].
           exists pn. eexists. split; [apply in_or_app; right; left; reflexivity|]. split; [|exact SC]. apply PC.
        -- left. exists (renumber (one_less nd) (h_count2 st)). split; [apply in_or_app; right; left; reflexivity|].
           apply other_side; assumption.
Qed.

(** A node wrongly taken for pruned is repaired by the next treeStatus event, provided that event does not
    save. *)
Definition pend (st : hst) : Prop :=
  exists st0 k nd c integ objv, inv st0 /\ live st0 /\ nth_error (h_tree st0) k = Some nd /\ child_allowed n ints good nd c /\
    ev_branch cfg st0 k (Misjudged c integ objv) = EvGo st.

Lemma misjudged_unsync st : pend st -> length (h_stats st) <> h_count2 st /\ h_stats st <> [] /\ live st.
Proof.
  intros (st0 & k & nd & c & integ & objv & I & LV & NK & CA & H). unfold ev_branch in H. rewrite NK in H.
  destruct (Nat.eqb (cn_left nd) 0); [discriminate|]. destruct (_ || _)%bool in H; [discriminate|]. cbv zeta in H.
  destruct I as (A & B & _). destruct (Nat.eqb _ 0) in H.
  - injection H as <-. cbn [h_stats h_count2]. split; [lia|]. split; [exact A|exact LV].
  - destruct (setNodeStatistics _ _ _ _ _ _ _ _ _); [|discriminate]. injection H as <-. cbn [h_stats h_count2]. rewrite len_snoc.
    split; [lia|]. split; [destruct (h_stats st0); discriminate|exact LV].
Qed.

Lemma misjudged_repaired st ord timeup pok solve slo sup : pend st -> Permutation (h_tree st) ord -> c_nochoose cfg = true ->
  (forall p nd, hd_error (rev (h_pruned st)) = Some p -> In nd (h_tree st) -> cn_num nd = ns_id p ->
     cn_lo nd = slo /\ cn_hi nd = sup) ->
  (count_leaves cfg (set_tree st ord) < c_max cfg)%Z -> timeup = false ->
  match ev_tree cfg st ord timeup pok solve slo sup with
  | EvGo st' => inv st' /\ live st'
  | EvStop _ => False
  | EvExit => False
  end.
Proof.
  intros (st0 & k & nd & c & integ & objv & I & [LV1 LV2] & NK & CA & H) P NC SB LF ->.
  pose proof I as (A & B & C & D & E & F & G & PI & J).
  assert (NI : node_inv (h_stats st0) nd) by (apply G, (nth_error_In _ k NK)).
  pose proof NI as (DD & LE & PA & s0 & o0 & S0 & O0 & F1 & F2 & F3 & F4 & F5 & F6 & BR & LO).
  pose proof (nth_lt _ _ _ S0) as NUM.
  assert (NZ : (1 <= h_count2 st0)%nat) by (rewrite <- B; destruct (h_stats st0); [contradiction|cbn; lia]).
  assert (OLD : forall m, In m (remove_nth k (h_tree st0)) -> (cn_num m < h_count2 st0)%nat).
  { intros m M. destruct (G m (remove_in _ _ _ M)) as (_ & _ & _ & t & _ & T & _). apply nth_lt in T. lia. }
  unfold ev_branch in H. rewrite NK in H.
  destruct (Nat.eqb (cn_left nd) 0) eqn:L0; [discriminate|]. apply Nat.eqb_neq in L0.
  destruct (_ || _)%bool eqn:ST in H; [discriminate|]. cbv zeta in H.
  set (ch := mk_child c (cn_num nd) (h_count2 st0)) in *.
  set (pn := setPrunedNodeStatistics (c_n cfg) (h_lo st0) (h_up st0) nd (h_count2 st0) integ (ci_lo c) (ci_hi c) objv) in *.
  assert (CPN : ns_changes pn = [] \/ ns_changes pn = cb ch).
  { unfold pn, setPrunedNodeStatistics. cbn [ns_changes]. destruct integ; [right|left; reflexivity]. rewrite E, F. reflexivity. }
  set (sc := fun (l h : nat -> option Q) => {| ns_id := ns_id pn; ns_orig := ns_orig pn; ns_parent := ns_parent pn;
            ns_var := cn_var ch; ns_way := way_code ch (cur_up ch); ns_bi := (2 - cn_left ch)%nat;
            ns_bval := branch_val (cn_value ch) (cur_up ch); ns_obj := cn_obj ch;
            ns_changes := ns_changes pn ++ changedBounds (c_n cfg) l h (h_lo st0) (h_up st0) |}).
  assert (CS : child_stat (sc (ci_lo c) (ci_hi c)) ch).
  { split; [repeat apply conj; reflexivity|]. split; [reflexivity|]. cbn [ns_changes sc]. rewrite E, F.
    destruct CPN as [-> | ->]; [left; reflexivity|right; reflexivity]. }
  unfold ev_tree.
  destruct (Nat.eqb (cn_left (one_less nd)) 0) eqn:L1; cbn [cn_left one_less] in L1.
  - apply Nat.eqb_eq in L1. injection H as <-. cbn [h_end h_leaf h_tree h_count2] in *. rewrite LV1.
    replace (c_max cfg <=? h_leaf st0)%Z with false by (symmetry; apply Z.leb_gt; exact LV2). cbn [orb].
    unfold first_stats. cbn [h_count2 set_tree]. replace (h_count2 st0 + 1 =? 1)%nat with false by (symmetry; apply Nat.eqb_neq; lia).
    cbv zeta. cbn [h_leaf set_leaf]. rewrite LV1 in LF.
    rewrite (proj2 (Z.leb_gt _ _) LF). cbn [orb].
    unfold fixup. rewrite NC. cbn [negb h_stats set_leaf set_tree h_count2 h_pruned h_tree h_lo h_up].
    destruct (rev (h_stats st0)) as [|l b] eqn:R; [exfalso; apply A; rewrite <- (rev_involutive (h_stats st0)), R; reflexivity|].
    apply rev_last in R. assert (NL : nth_error (h_stats st0) (length (rev b)) = Some l) by (rewrite R; apply nth_snoc).
    destruct (C _ _ NL) as [IL _].
    assert (IL2 : S (ns_id l) = h_count2 st0) by (rewrite <- B, R, len_snoc, IL; reflexivity).
    rewrite IL2. replace (h_count2 st0 + 1 =? h_count2 st0)%nat with false by (symmetry; apply Nat.eqb_neq; lia).
    rewrite rev_app_distr. cbn [rev app].
    assert (INC : In ch ord) by (apply (Permutation_in ch P), in_or_app; right; left; reflexivity).
    assert (FD : find (fun m => cn_num m =? ns_id pn) ord = Some ch).
    { destruct (find _ ord) as [m|] eqn:FE.
      - apply find_some in FE. destruct FE as [FE1 FE2]. apply Nat.eqb_eq in FE2. cbn in FE2.
        apply (Permutation_in m (Permutation_sym P)) in FE1. apply in_snoc2 in FE1. destruct FE1 as [FE1| ->]; [|reflexivity].
        specialize (OLD m FE1). lia.
      - exfalso. apply (find_none _ _ FE ch) in INC. cbn in INC. rewrite Nat.eqb_refl in INC. discriminate. }
    rewrite FD.
    cbn [h_pruned] in SB. rewrite rev_app_distr in SB. cbn [rev app hd_error] in SB.
    destruct (SB pn ch eq_refl) as [SB1 SB2]; [apply in_or_app; right; left; reflexivity|reflexivity|].
    cbn [cn_lo cn_hi ch mk_child] in SB1, SB2. subst slo sup.
    cbn [ns_id]. replace (ns_id l =? ns_id pn)%nat with false by (symmetry; apply Nat.eqb_neq; cbn; lia).
    split; [|split; [reflexivity|exact LF]].
    apply (created_inv st0 k nd c (sc (ci_lo c) (ci_hi c))); try reflexivity; try assumption.
    { cbn [h_pruned set_stats]. apply rev_involutive. }
    left. split; [lia|]. split; [reflexivity|]. split; [cbn; lia|].
    cbn [h_tree set_stats set_leaf set_tree]. intro m. rewrite (perm_in _ _ P). apply in_snoc2.
  - apply Nat.eqb_neq in L1. assert (L2 : cn_left nd = 2%nat) by (destruct LE; lia).
    destruct (setNodeStatistics _ _ _ _ (one_less nd) _ _ _ _) as [sp|] eqn:SP; [|discriminate].
    injection H as <-. cbn [h_end h_leaf h_tree h_count2] in *. rewrite LV1.
    destruct (sns_new _ _ _ _ _ _ _ _ _ C SP) as [ID|ID]; [|contradiction].
    replace (c_max cfg <=? h_leaf st0)%Z with false by (symmetry; apply Z.leb_gt; exact LV2). cbn [orb].
    unfold first_stats. cbn [h_count2 set_tree]. replace (S (h_count2 st0 + 1) =? 1)%nat with false by (symmetry; apply Nat.eqb_neq; lia).
    cbv zeta. cbn [h_leaf set_leaf]. rewrite LV1 in LF.
    rewrite (proj2 (Z.leb_gt _ _) LF). cbn [orb].
    unfold fixup. rewrite NC. cbn [negb h_stats set_leaf set_tree h_count2 h_pruned h_tree h_lo h_up].
    rewrite rev_app_distr. cbn [rev app]. rewrite ID, B.
    replace (S (h_count2 st0 + 1) =? S (h_count2 st0))%nat with false by (symmetry; apply Nat.eqb_neq; lia).
    rewrite rev_app_distr. cbn [rev app].
    assert (TM : forall m, In m ord <-> In m (remove_nth k (h_tree st0)) \/ m = ch \/ m = renumber (one_less nd) (h_count2 st0 + 1)).
    { intro m. rewrite (perm_in _ _ P). apply in_snoc3. }
    assert (INC : In ch ord) by (apply TM; right; left; reflexivity).
    assert (FD : find (fun m => cn_num m =? ns_id pn) ord = Some ch).
    { destruct (find _ ord) as [m|] eqn:FE.
      - apply find_some in FE. destruct FE as [FE1 FE2]. apply Nat.eqb_eq in FE2. cbn in FE2.
        apply TM in FE1. destruct FE1 as [FE1|[-> | ->]]; [|reflexivity|].
        + specialize (OLD m FE1). lia.
        + cbn in FE2. lia.
      - exfalso. apply (find_none _ _ FE ch) in INC. cbn in INC. rewrite Nat.eqb_refl in INC. discriminate. }
    rewrite FD.
    cbn [h_pruned] in SB. rewrite rev_app_distr in SB. cbn [rev app hd_error] in SB.
    destruct (SB pn ch eq_refl) as [SB1 SB2]; [apply in_snoc3; right; left; reflexivity|reflexivity|].
    cbn [cn_lo cn_hi ch mk_child] in SB1, SB2. subst slo sup.
    cbn [ns_id]. replace (h_count2 st0 =? ns_id pn)%nat with true by (symmetry; apply Nat.eqb_eq; reflexivity).
    split; [|split; [reflexivity|exact LF]].
    apply (created_inv st0 k nd c (sc (ci_lo c) (ci_hi c))); try reflexivity; try assumption.
    { cbn [h_pruned set_stats]. apply rev_involutive. }
    right. split; [exact L2|]. eexists. split.
    { cbn [h_stats set_stats]. rewrite rev_involutive. rewrite <- app_assoc. reflexivity. }
    split; [exact (sns_same _ _ _ _ _ _ _ _ _ SP)|]. split; [reflexivity|]. split; [cbn; lia|].
    cbn [h_tree set_stats set_leaf set_tree]. intro m. rewrite TM. replace (h_count2 st0 + 1)%nat with (S (h_count2 st0)) by lia. reflexivity.
Qed.

Lemma drop_inv st k : inv st -> (forall nd, nth_error (h_tree st) k = Some nd -> forall x, good x -> ~ unexplored n nd x) ->
  inv (set_tree st (remove_nth k (h_tree st))).
Proof.
  intros (A & B & C & D & E & F & G & PI & J) H. unfold inv. cbn [h_stats h_count2 h_lo h_up h_tree h_pruned set_tree].
  split; [exact A|]. split; [exact B|]. split; [exact C|]. split; [exact D|]. split; [exact E|]. split; [exact F|].
  split; [intros nd N; apply G, (remove_in k), N|]. split; [exact PI|]. intros x X. destruct (J x X) as [(nd & J1 & J2)|J1]; [left|right; exact J1].
  exists nd. split; [|exact J2]. destruct (nth_error (h_tree st) k) as [m|] eqn:N.
  - destruct (in_remove k _ m nd N J1) as [->|Q]; [exfalso; exact (H m eq_refl x X J2)|exact Q].
  - apply nth_error_None in N. unfold remove_nth. rewrite firstn_all2 by exact N. apply in_or_app. left. exact J1.
Qed.

(** A treeStatus event. *)
Lemma tree_event st ord timeup pok solve slo sup :
  inv0 st \/ inv st -> live st -> Permutation (h_tree st) ord -> (c_keep cfg = false -> forall i, solve_ok (solve i)) ->
  match ev_tree cfg st ord timeup pok solve slo sup with
  | EvExit => True
  | EvGo st' => inv st' /\ live st'
  | EvStop st' => h_end st' = true /\ h_leaf st' = Z.of_nat (d_num_terms (h_disj st')) /\ (h_leaf st' <= count_leaves cfg (set_tree st ord))%Z /\
      d_common (h_disj st') = c0 /\ d_common_ineqs (h_disj st') = [] /\
      (forall x, good x -> in_disj (h_disj st') x) /\
      (exists a p, d_terms (h_disj st') = a ++ p /\ terms_from ord a /\ (forall t, In t p -> td_feasible t = false) /\
         (c_keep cfg = false -> p = [])) /\
      (c_keep cfg = false -> d_isol (h_disj st') = h_isol st /\
         (Z.of_nat (d_num_terms (h_disj st')) = Z.of_nat (length (d_terms (h_disj st'))) + isol_count st)%Z /\
         (timeup = true \/ (c_max cfg < 2 * Z.of_nat (d_num_terms (h_disj st')))%Z)) /\
      (c_keep cfg = true -> d_num_terms (h_disj st') = length (d_terms (h_disj st')) /\
         (timeup = true \/ (c_max cfg <= Z.of_nat (d_num_terms (h_disj st')))%Z)) /\
      (forall nd, In nd ord -> exists stats, node_inv stats nd)
  end.
Proof.
  intros I [LV1 LV2] P SO. unfold ev_tree. rewrite LV1. cbn [orb].
  destruct (Z.leb_spec (c_max cfg) (h_leaf st)) as [Q|_]; [lia|].
  destruct (first_stats cfg (set_tree st ord)) as [st1|] eqn:FS; [|exact Logic.I].
  destruct (first_stats_inv st ord st1 I P FS) as (I1 & T1 & T2 & T3). cbv zeta.
  set (st2 := set_leaf st1 (count_leaves cfg st1)).
  assert (I2 : inv st2) by (apply (inv_ext st1); try reflexivity; exact I1).
  assert (LF : h_leaf st2 = count_leaves cfg st2) by reflexivity.
  assert (T4 : h_tree st2 = ord) by exact T1.
  assert (CL : h_leaf st2 = count_leaves cfg (set_tree st ord)) by exact (first_stats_count _ _ FS).
  assert (NIV : forall nd, In nd ord -> exists stats, node_inv stats nd).
  { intros nd N. exists (h_stats st2). destruct I2 as (_ & _ & _ & _ & _ & _ & G & _). apply G. rewrite T4. exact N. }
  destruct (Z.leb_spec (c_max cfg) (h_leaf st2)) as [Q|Q]; cbn [orb].
  2: destruct timeup eqn:TU.
  1,2: destruct (c_keep cfg) eqn:K.
  - destruct (saveInformationFromStats cfg st2 pok solve) as [st3|] eqn:S; [|exact Logic.I].
    destruct (savefs_spec st2 pok solve st3 I2 K LF S) as (A1 & A2 & A3 & A4 & (a & p & A5 & A6 & A7 & A8) & A9).
    assert (HL : h_leaf st3 = h_leaf st2).
    { unfold saveInformationFromStats in S. cbv zeta in S.
      destruct (savefs_loop _ _ _ _ _ _ _) as [b1|] eqn:E1; [|discriminate]. destruct (savefs_pruned _ _ _ _) as [b2|] eqn:E2; [|discriminate].
      injection S as <-. cbn [h_leaf with_saved]. destruct I2 as (_ & _ & SI & _ & _ & _ & G & _).
      destruct (savefs_loop_spec _ pok solve SI K _ _ _ _ G E1) as (? & _ & _ & _ & _ & X1 & _).
      destruct (savefs_pruned_spec _ SI K _ _ _ E2) as (? & _ & _ & _ & X2 & _). cbn [sa_leaf] in X1. congruence. }
    cbn [h_end h_leaf h_disj set_end]. split; [reflexivity|]. split; [exact A3|]. split; [lia|]. split; [exact A1|]. split; [exact A2|].
    split; [exact A9|]. split.
    { exists a, p. split; [exact A5|]. rewrite <- T4. split; [exact A6|]. split; [exact A8|discriminate]. }
    split; [discriminate|]. split; [|exact NIV]. intros _. split; [exact A4|]. right.
    lia.
  - destruct (saveInformation cfg st2 timeup pok solve) as [[st3 status]|] eqn:S; [|exact Logic.I].
    destruct (save_spec st2 timeup pok solve st3 status I2 (SO eq_refl) K LF S) as (A1 & A2 & A3 & A4 & A5 & A6 & A7 & A8 & A9 & A10 & A11).
    destruct status.
    + rewrite (fixup_sync st3 slo sup A1). split; [exact A1|]. split; [rewrite A2; cbn; congruence|]. apply A10. reflexivity.
    + destruct (A11 eq_refl) as (B1 & B2 & B3). cbn [h_end h_leaf h_disj set_end]. split; [reflexivity|]. split; [exact B1|]. split; [lia|].
      split; [exact A4|]. split; [exact A5|]. split; [exact B3|]. split.
      { exists (d_terms (h_disj st3)), []. rewrite app_nil_r. split; [reflexivity|]. rewrite <- T4. split; [exact A8|]. split; [intros ? []|reflexivity]. }
      split; [|split; [discriminate|exact NIV]]. intros _. split; [rewrite A6; exact T2|]. split; [|exact B2].
      rewrite A7. unfold isol_count. cbn. rewrite T2. reflexivity.
  - destruct (saveInformationFromStats cfg st2 pok solve) as [st3|] eqn:S; [|exact Logic.I].
    destruct (savefs_spec st2 pok solve st3 I2 K LF S) as (A1 & A2 & A3 & A4 & (a & p & A5 & A6 & A7 & A8) & A9).
    assert (HL : h_leaf st3 = h_leaf st2).
    { unfold saveInformationFromStats in S. cbv zeta in S.
      destruct (savefs_loop _ _ _ _ _ _ _) as [b1|] eqn:E1; [|discriminate]. destruct (savefs_pruned _ _ _ _) as [b2|] eqn:E2; [|discriminate].
      injection S as <-. cbn [h_leaf with_saved]. destruct I2 as (_ & _ & SI & _ & _ & _ & G & _).
      destruct (savefs_loop_spec _ pok solve SI K _ _ _ _ G E1) as (? & _ & _ & _ & _ & X1 & _).
      destruct (savefs_pruned_spec _ SI K _ _ _ E2) as (? & _ & _ & _ & X2 & _). cbn [sa_leaf] in X1. congruence. }
    cbn [h_end h_leaf h_disj set_end]. split; [reflexivity|]. split; [exact A3|]. split; [lia|]. split; [exact A1|]. split; [exact A2|].
    split; [exact A9|]. split.
    { exists a, p. split; [exact A5|]. rewrite <- T4. split; [exact A6|]. split; [exact A8|discriminate]. }
    split; [discriminate|]. split; [|exact NIV]. intros _. split; [exact A4|]. left. reflexivity.
  - destruct (saveInformation cfg st2 true pok solve) as [[st3 status]|] eqn:S; [|exact Logic.I].
    destruct (save_spec st2 true pok solve st3 status I2 (SO eq_refl) K LF S) as (A1 & A2 & A3 & A4 & A5 & A6 & A7 & A8 & A9 & A10 & A11).
    destruct status.
    + rewrite (fixup_sync st3 slo sup A1). split; [exact A1|]. split; [rewrite A2; cbn; congruence|]. apply A10. reflexivity.
    + destruct (A11 eq_refl) as (B1 & B2 & B3). cbn [h_end h_leaf h_disj set_end]. split; [reflexivity|]. split; [exact B1|]. split; [lia|].
      split; [exact A4|]. split; [exact A5|]. split; [exact B3|]. split.
      { exists (d_terms (h_disj st3)), []. rewrite app_nil_r. split; [reflexivity|]. rewrite <- T4. split; [exact A8|]. split; [intros ? []|reflexivity]. }
      split; [|split; [discriminate|exact NIV]]. intros _. split; [rewrite A6; exact T2|]. split; [|exact B2].
      rewrite A7. unfold isol_count. cbn. rewrite T2. reflexivity.
  - rewrite (fixup_sync st2 slo sup I2). split; [exact I2|]. split; [cbn; congruence|exact Q].
Qed.

(** Every reachable state. *)
Definition good_state (st : hst) : Prop := (inv0 st \/ inv st \/ pend st /\ c_nochoose cfg = true) /\ live st.

Lemma good_recorded st : good_state st -> recorded st -> (inv0 st \/ inv st) /\ live st.
Proof.
  intros [[I|[I|[P _]]] L] R; [split; [left; exact I|exact L]|split; [right; exact I|exact L]|].
  destruct (misjudged_unsync st P) as (U1 & U2 & _). destruct R as [R|R]; contradiction.
Qed.

Lemma run_inv d st : run cfg (allowed cfg ints good) (h_init lo0 up0 root d) st -> good_state st.
Proof.
  induction 1 as [|st a st' R IH AL ST].
  - split; [left|split; [reflexivity|exact Hmax]]. unfold inv0. cbn. repeat apply conj; try reflexivity; [intros nd [<-|[]]; reflexivity|].
    intros x X. exists root. split; [left; reflexivity|]. split; [exact (Hgoodroot x X)|]. destruct Hroot as (_ & L & _). rewrite L. discriminate.
  - destruct a as [ord timeup pok solve slo sup|k out|k|x]; cbn [step] in ST.
    + destruct AL as (P & SO & AL). destruct AL as [AL|(AL1 & AL2 & AL3)].
      * destruct (good_recorded st IH AL) as [I LV].
        pose proof (tree_event st ord timeup pok solve slo sup I LV P SO) as T. rewrite ST in T.
        destruct T as [T1 T2]. split; [right; left; exact T1|exact T2].
      * destruct IH as [[I|[I|[PE NC]]] LV].
        1,2: pose proof (tree_event st ord timeup pok solve slo sup ltac:(tauto) LV P SO) as T; rewrite ST in T;
          destruct T as [T1 T2]; split; [right; left; exact T1|exact T2].
        pose proof (misjudged_repaired st ord timeup pok solve slo sup PE P NC AL3 AL1 AL2) as T. rewrite ST in T.
        destruct T as [T1 T2]. split; [right; left; exact T1|exact T2].
    + destruct AL as (A1 & A2 & AL). destruct (good_recorded st IH A2) as [[I|I] LV]; [exfalso; apply A1, I|].
      destruct out as [c|integ slo sup objv|c integ objv].
      1: pose proof (branch_inv st k (Created c) st' I AL ST) as BI.
      2: pose proof (branch_inv st k (Pruned integ slo sup objv) st' I AL ST) as BI.
      1,2: destruct BI as (B1 & B2 & B3 & _); split; [right; left; exact B1|]; destruct LV as [L1 L2];
        split; [rewrite B3; exact L1|rewrite B2; exact L2].
      assert (PE : exists nd, nth_error (h_tree st) k = Some nd).
      { unfold ev_branch in ST. destruct (nth_error (h_tree st) k) as [nd|]; [exists nd; reflexivity|discriminate]. }
      destruct PE as [nd NK]. destruct (AL nd NK) as [NC CA].
      assert (PE : pend st') by (exists st, k, nd, c, integ, objv; exact (conj I (conj LV (conj NK (conj CA ST))))).
      split; [right; right; split; assumption|apply (misjudged_unsync st' PE)].
    + destruct AL as [A2 AL]. destruct (good_recorded st IH A2) as [I LV].
      injection ST as <-. split; [|exact LV]. destruct I as [I|I]; [left|right; left; apply drop_inv; assumption].
      destruct I as (A & B & C & D & E & F & G & J). unfold inv0. cbn [h_stats h_pruned h_count2 h_lo h_up h_tree set_tree].
      repeat apply conj; try assumption.
      * intros nd N. apply F, (remove_in k), N.
      * destruct (h_tree st) as [|a [|b r]]; cbn [length] in G; [| |lia].
        -- destruct k; cbn; lia.
        -- destruct k as [|[|k]]; cbn; lia.
      * intros x X. destruct (J x X) as (nd & N1 & N2). exists nd. split; [|exact N2].
        destruct (nth_error (h_tree st) k) as [m|] eqn:N.
        -- destruct (in_remove k _ m nd N N1) as [->|Q]; [exfalso; exact (AL m eq_refl x X N2)|exact Q].
        -- apply nth_error_None in N. unfold remove_nth. rewrite firstn_all2 by exact N. apply in_or_app. left. exact N1.
    + destruct (good_recorded st IH AL) as [I LV].
      destruct (_ || _)%bool; [discriminate|]. injection ST as <-. split; [|exact LV].
      destruct I as [I|I]; [left; exact I|right; left; apply (inv_ext st); try reflexivity; exact I].
Qed.

(** The search only stops in a treeStatus event that has just written the disjunction. *)
Lemma live_no_stop st a st' : live st -> step cfg st a = EvStop st' ->
  exists ord timeup pok solve slo sup, a = ATree ord timeup pok solve slo sup.
Proof.
  intros [L1 L2] H. destruct a as [ord timeup pok solve slo sup|k out|k|x]; cbn [step] in H.
  - eauto 10.
  - exfalso. unfold ev_branch in H. destruct (nth_error (h_tree st) k) as [nd|]; [|discriminate].
    destruct (Nat.eqb (cn_left nd) 0); [discriminate|].
    rewrite L1, (proj2 (Z.leb_gt _ _) L2) in H. cbn [orb] in H. cbv zeta in H.
    destruct out as [c|? ? ? ?|? ? ?]; [destruct (setNodeStatistics _ _ _ _ (mk_child _ _ _) _ _ _ _); [|discriminate]| |];
      (destruct (Nat.eqb _ 0); [discriminate|]; destruct (setNodeStatistics _ _ _ _ _ _ _ _ _); discriminate).
  - discriminate.
  - rewrite L1, (proj2 (Z.leb_gt _ _) L2) in H. discriminate.
Qed.
Lemma stop_spec d st a st' : run cfg (allowed cfg ints good) (h_init lo0 up0 root d) st -> allowed cfg ints good st a ->
  step cfg st a = EvStop st' ->
  exists ord timeup pok solve slo sup, a = ATree ord timeup pok solve slo sup /\ Permutation (h_tree st) ord /\
    h_end st' = true /\ h_leaf st' = Z.of_nat (d_num_terms (h_disj st')) /\ (h_leaf st' <= count_leaves cfg (set_tree st ord))%Z /\
    d_common (h_disj st') = c0 /\ d_common_ineqs (h_disj st') = [] /\
    (forall x, good x -> in_disj (h_disj st') x) /\
    (exists ts p, d_terms (h_disj st') = ts ++ p /\ terms_from ord ts /\ (forall t, In t p -> td_feasible t = false) /\
       (c_keep cfg = false -> p = [])) /\
    (c_keep cfg = false -> d_isol (h_disj st') = h_isol st /\
       (Z.of_nat (d_num_terms (h_disj st')) = Z.of_nat (length (d_terms (h_disj st'))) + isol_count st)%Z /\
       (timeup = true \/ (c_max cfg < 2 * Z.of_nat (d_num_terms (h_disj st')))%Z)) /\
    (c_keep cfg = true -> d_num_terms (h_disj st') = length (d_terms (h_disj st')) /\
       (timeup = true \/ (c_max cfg <= Z.of_nat (d_num_terms (h_disj st')))%Z)) /\
    (forall nd, In nd ord -> exists stats, node_inv stats nd).
Proof.
  intros R AL ST. pose proof (run_inv d st R) as GS. destruct (live_no_stop st a st' (proj2 GS) ST) as (ord & timeup & pok & solve & slo & sup & ->).
  exists ord, timeup, pok, solve, slo, sup. split; [reflexivity|]. cbn [step] in ST. destruct AL as (P & SO & AL). split; [exact P|].
  assert (I : inv0 st \/ inv st).
  { destruct GS as [[I|[I|[PE NC]]] LV]; [left; exact I|right; exact I|].
    destruct AL as [AL|(AL1 & AL2 & AL3)]; [exfalso; destruct (misjudged_unsync st PE) as (U1 & U2 & _); destruct AL; contradiction|].
    pose proof (misjudged_repaired st ord timeup pok solve slo sup PE P NC AL3 AL1 AL2) as T. rewrite ST in T. contradiction. }
  pose proof (tree_event st ord timeup pok solve slo sup I (proj2 GS) P SO) as T. rewrite ST in T. exact T.
Qed.
End Inv.

(** * Bounds restored from recorded changes *)
Lemma apply_lo_app a b f : apply_lo (a ++ b) f = apply_lo b (apply_lo a f).
Proof. unfold apply_lo. apply fold_left_app. Qed.
Lemma apply_up_app a b f : apply_up (a ++ b) f = apply_up b (apply_up a f).
Proof. unfold apply_up. apply fold_left_app. Qed.

Lemma apply_lo_other cs f j : (forall c, In c cs -> (bc_bound c <=? 0)%Z = true -> bc_var c <> j) -> apply_lo cs f j = f j.
Proof.
  revert f; induction cs as [|c cs IH]; intros f H; [reflexivity|]. cbn [apply_lo fold_left]. fold (apply_lo cs (upd_lo c f)).
  rewrite IH by (intros; apply H; [right|]; assumption). unfold upd_lo. destruct (bc_bound c <=? 0)%Z eqn:B; [|reflexivity].
  destruct (Nat.eqb_spec j (bc_var c)) as [E|E]; [|reflexivity]. exfalso. apply (H c (or_introl eq_refl) B). symmetry; exact E.
Qed.
Lemma apply_up_other cs f j : (forall c, In c cs -> (bc_bound c <=? 0)%Z = false -> bc_var c <> j) -> apply_up cs f j = f j.
Proof.
  revert f; induction cs as [|c cs IH]; intros f H; [reflexivity|]. cbn [apply_up fold_left]. fold (apply_up cs (upd_up c f)).
  rewrite IH by (intros; apply H; [right|]; assumption). unfold upd_up. destruct (bc_bound c <=? 0)%Z eqn:B; [reflexivity|].
  destruct (Nat.eqb_spec j (bc_var c)) as [E|E]; [|reflexivity]. exfalso. apply (H c (or_introl eq_refl) B). symmetry; exact E.
Qed.

Definition restored (new old g : option Q) : option Q := match new with Some _ => if isValB new old then g else new | None => g end.

Lemma changed_seq_lo lo up olo oup j len : forall s g, 
  apply_lo (flat_map (fun j => changed_entry 0 (lo j) (olo j) j ++ changed_entry 1 (up j) (oup j) j) (seq s len)) g j =
  if (s <=? j)%nat && (j <? s + len)%nat then restored (lo j) (olo j) (g j) else g j.
Proof.
  induction len as [|len IH]; intros s g; cbn [seq flat_map].
  - replace (j <? s + 0)%nat with (negb (s <=? j)%nat).
    { destruct (s <=? j)%nat; reflexivity. }
    rewrite Nat.add_0_r. symmetry. apply Nat.ltb_antisym.
  - rewrite apply_lo_app, IH. rewrite apply_lo_app.
    rewrite (apply_lo_other (changed_entry 1 (up s) (oup s) s)).
    2:{ intros c. unfold changed_entry. destruct (up s); [|intros []]. destruct (isValB _ _); [intros []|]. intros [<-|[]] B. discriminate B. }
    destruct (Nat.eq_dec s j) as [->|NE].
    + replace (S j <=? j)%nat with false by (symmetry; apply Nat.leb_gt; lia).
      rewrite Nat.leb_refl. replace (j <? j + S len)%nat with true by (symmetry; apply Nat.ltb_lt; lia). cbn [andb].
      unfold restored, changed_entry. destruct (lo j) as [v|]; [|reflexivity]. destruct (isValB _ _); [reflexivity|].
      unfold apply_lo, upd_lo; cbn [fold_left bc_bound bc_var bc_val Z.leb Z.compare]. rewrite Nat.eqb_refl. reflexivity.
    + rewrite (apply_lo_other (changed_entry 0 (lo s) (olo s) s)).
      2:{ intros c. unfold changed_entry. destruct (lo s); [|intros []]. destruct (isValB _ _); [intros []|]. intros [<-|[]] _. exact NE. }
      replace ((S s <=? j) && (j <? S s + len))%nat with ((s <=? j) && (j <? s + S len))%nat; [reflexivity|].
      destruct (Nat.leb_spec s j), (Nat.leb_spec (S s) j); try lia; destruct (Nat.ltb_spec j (s + S len)), (Nat.ltb_spec j (S s + len)); try lia; reflexivity.
Qed.
Lemma changed_seq_up lo up olo oup j len : forall s g, 
  apply_up (flat_map (fun j => changed_entry 0 (lo j) (olo j) j ++ changed_entry 1 (up j) (oup j) j) (seq s len)) g j =
  if (s <=? j)%nat && (j <? s + len)%nat then restored (up j) (oup j) (g j) else g j.
Proof.
  induction len as [|len IH]; intros s g; cbn [seq flat_map].
  - replace (j <? s + 0)%nat with (negb (s <=? j)%nat).
    { destruct (s <=? j)%nat; reflexivity. }
    rewrite Nat.add_0_r. symmetry. apply Nat.ltb_antisym.
  - rewrite apply_up_app, IH. rewrite apply_up_app.
    assert (G0 : apply_up (changed_entry 0 (lo s) (olo s) s) g j = g j).
    { apply apply_up_other. intros c. unfold changed_entry. destruct (lo s); [|intros []]. destruct (isValB _ _); [intros []|]. intros [<-|[]] B. discriminate B. }
    destruct (Nat.eq_dec s j) as [->|NE].
    + replace (S j <=? j)%nat with false by (symmetry; apply Nat.leb_gt; lia).
      rewrite Nat.leb_refl. replace (j <? j + S len)%nat with true by (symmetry; apply Nat.ltb_lt; lia). cbn [andb].
      unfold restored. unfold changed_entry at 1. destruct (up j) as [v|]; [|exact G0]. destruct (isValB (Some v) _); [exact G0|].
      unfold apply_up, upd_up; cbn [fold_left bc_bound bc_var bc_val Z.leb Z.compare]. rewrite Nat.eqb_refl. reflexivity.
    + rewrite (apply_up_other (changed_entry 1 (up s) (oup s) s)).
      2:{ intros c. unfold changed_entry. destruct (up s); [|intros []]. destruct (isValB _ _); [intros []|]. intros [<-|[]] _. exact NE. }
      rewrite G0. replace ((S s <=? j) && (j <? S s + len))%nat with ((s <=? j) && (j <? s + S len))%nat; [reflexivity|].
      destruct (Nat.leb_spec s j), (Nat.leb_spec (S s) j); try lia; destruct (Nat.ltb_spec j (s + S len)), (Nat.ltb_spec j (S s + len)); try lia; reflexivity.
Qed.
Lemma changed_lo n lo up olo oup g j : (j < n)%nat -> apply_lo (changedBounds n lo up olo oup) g j = restored (lo j) (olo j) (g j).
Proof. intro H. unfold changedBounds. rewrite changed_seq_lo. replace (j <? 0 + n)%nat with true by (symmetry; apply Nat.ltb_lt; lia). reflexivity. Qed.
Lemma changed_up n lo up olo oup g j : (j < n)%nat -> apply_up (changedBounds n lo up olo oup) g j = restored (up j) (oup j) (g j).
Proof. intro H. unfold changedBounds. rewrite changed_seq_up. replace (j <? 0 + n)%nat with true by (symmetry; apply Nat.ltb_lt; lia). reflexivity. Qed.

Lemma isValB_close a b : isValB a b = true -> close_bound a b.
Proof.
  destruct a as [p|], b as [q|]; cbn; try discriminate; [|trivial]. intro H. apply isVal_iff in H. exact H.
Qed.
