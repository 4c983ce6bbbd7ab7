(** C59, continued: which candidates are tried, one at a time, while looking for more cuts tight on a point (mode 1). *)
From Verif Require Import Prelude Model.LP Model.Tolerance Model.SolverHelper Model.TightOnPoint Model.Schedule Spec.LPSpec Proofs.ToleranceP
  Proofs.SolverHelperP Properties.C46_ObjectiveUpdate Properties.C22_TightOnPoint Properties.C59_Schedule.
#[local] Open Scope Q_scope.

(** The [n]-th solve was solved to optimality and its solution makes candidate [idx] tight: a row has its right-hand side as activity; the
    next [ncols] numbers stand for the columns at their lower bounds, the ones after that for the columns at their upper bounds. *)
Definition made_tight (E : senv) (n idx : nat) : Prop :=
  so_optimal (se_solve E n) = true /\
  let rows := tp_nrows (se_tp E) in let cols := tp_ncols (se_tp E) in
  ((idx < rows)%nat /\ so_row (se_solve E n) idx = true \/
   (exists c, (c < cols)%nat /\ idx = (rows + c)%nat /\ so_lb (se_solve E n) c = true) \/
   (exists c, idx = (rows + cols + c)%nat /\ so_ub (se_solve E n) c = true)).
(** Going through a list in order; [k] have been taken so far; an element is taken, or skipped because of [no k]. *)
Inductive picks (no : nat -> nat -> Prop) : nat -> list nat -> list nat -> Prop :=
| picks_stop k l : picks no k l []
| picks_take k x l t : ~ no k x -> picks no (S k) l t -> picks no k (x :: l) (x :: t)
| picks_skip k x l t : no k x -> picks no k l t -> picks no k (x :: l) t.

Definition changed_by (ask : nat -> tans) (k x : nat) : Prop := match k with O => False | S _ => ta_changed (ask k) x = true end.
Lemma picks_skip_app no k : forall p l t, Forall (no k) p -> picks no k l t -> picks no k (p ++ l) t.
Proof. induction p as [|x p IH]; intros l t F H; [exact H|]. inversion F; subst. cbn [app]. apply picks_skip; [assumption|]. apply IH; assumption. Qed.
Lemma advance_picks d ch : forall rest vec s, no_objective d s ->
  let '(vec', rest', s') := advance d true ch rest vec s in
  (exists cur p, rest = p ++ cur :: rest' /\ vec' = Some (vec_of d cur) /\ objective_is d (pval (vec_of d cur)) s' /\
     Forall (fun x => ch x = true) p /\ ch cur = false) \/ rest' = [].
Proof.
  induction rest as [|idx r IH]; intros vec s Z; cbn [advance andb]; [right; reflexivity|]. destruct (ch idx) eqn:C.
  - specialize (IH None s Z). destruct (advance d true ch r None s) as [[vec' rest'] s']. destruct IH as [(cur & p & -> & V & O & F & N)|K]; [left|right; exact K].
    exists cur, (idx :: p). split; [reflexivity|]. split; [exact V|]. split; [exact O|]. split; [constructor; assumption|exact N].
  - left. exists idx, []. split; [reflexivity|]. split; [reflexivity|]. split; [apply add_on_zero, Z|]. split; [constructor|exact C].
Qed.
Lemma loop_picks d ask : forall fuel c last vec rest s tr cur r s' tr',
  (vec = Some (vec_of d cur) /\ objective_is d (pval (vec_of d cur)) s /\ ~ changed_by ask c cur) \/ rest = [] ->
  loop_pos d ask true fuel (S c) last vec rest s tr = Some (r, s', tr') ->
  exists new sub, tr' = tr ++ new /\ Forall2 (fun s1 idx => objective_is d (candidate_coef d idx) s1) new sub /\ picks (changed_by ask) c (cur :: rest) sub.
Proof.
  induction fuel as [|f IH]; intros c last vec rest s tr cur r s' tr' H; cbn [loop_pos].
  - intro X. injection X as <- <- <-. exists [], []. rewrite app_nil_r. split; [reflexivity|]. split; constructor.
  - destruct (_ || _). { intro X. injection X as <- <- <-. exists [], []. rewrite app_nil_r. split; [reflexivity|]. split; constructor. }
    destruct rest as [|x r'] eqn:ER. { intro X. injection X as <- <- <-. exists [], []. rewrite app_nil_r. split; [reflexivity|]. split; constructor. }
    rewrite <- ER in *. assert (NE : rest <> []) by (rewrite ER; discriminate). destruct H as [(-> & O & NC)|H]; [|congruence].
    assert (OC : objective_is d (candidate_coef d cur) s) by (intros j Hj; rewrite (O j Hj); apply vec_of_coef).
    destruct f as [|f'].
    { intro X. injection X as <- <- <-. exists [s], [cur]. split; [reflexivity|]. split; [repeat constructor; exact OC|]. apply picks_take; [exact NC|constructor]. }
    pose proof (advance_picks d (ta_changed (ask (S c))) rest (Some (vec_of d cur)) (reset_at d (vec_of d cur) s) (reset_at_zero d _ s O)) as A.
    destruct (advance d true (ta_changed (ask (S c))) rest (Some (vec_of d cur)) (reset_at d (vec_of d cur) s)) as [[vec' rest'] s1].
    intro X. destruct A as [(cur' & p & EP & -> & O' & FP & NC')| ->].
    + assert (NC2 : ~ changed_by ask (S c) cur') by (cbn [changed_by]; congruence).
      destruct (IH (S c) _ _ _ _ _ cur' _ _ _ (or_introl (conj eq_refl (conj O' NC2))) X) as (new & sub & -> & F & PK).
      exists (s :: new), (cur :: sub). rewrite <- app_assoc. split; [reflexivity|]. split; [constructor; assumption|].
      apply picks_take; [exact NC|]. rewrite EP. apply picks_skip_app; [exact FP|exact PK].
    + cbn [loop_pos] in X. 
      destruct (_ || _); injection X as <- <- <-; (exists [s], [cur]; split; [reflexivity|]; split; [repeat constructor; exact OC|]; apply picks_take; [exact NC|constructor]).
Qed.

Lemma idx_tight_iff E n idx : so_optimal (se_solve E n) && idx_tight (se_tp E) (se_solve E n) idx = true <-> made_tight E n idx.
Proof.
  unfold made_tight, idx_tight. cbv zeta. rewrite andb_true_iff. apply and_iff_compat_l.
  destruct (Nat.ltb_spec idx (tp_nrows (se_tp E))) as [L|L].
  - split; [intro H; left; split; assumption|]. intros [[_ H]|[(c & _ & -> & _)|(c & -> & _)]]; [exact H|lia|lia].
  - destruct (Nat.ltb_spec idx (tp_nrows (se_tp E) + tp_ncols (se_tp E))) as [M|M].
    + split.
      * intro H. right. left. exists (idx - tp_nrows (se_tp E))%nat. split; [lia|]. split; [lia|exact H].
      * intros [[X _]|[(c & _ & -> & H)|(c & -> & _)]]; [lia| |lia]. replace (tp_nrows (se_tp E) + c - tp_nrows (se_tp E))%nat with c by lia. exact H.
    + split.
      * intro H. right. right. exists (idx - tp_nrows (se_tp E) - tp_ncols (se_tp E))%nat. split; [lia|exact H].
      * intros [[X _]|[(c & C & -> & _)|(c & -> & H)]]; [lia|lia|].
        replace (tp_nrows (se_tp E) + tp_ncols (se_tp E) + c - tp_nrows (se_tp E) - tp_ncols (se_tp E))%nat with c by lia. exact H.
Qed.
Lemma changed_iff E k0 row k x : changed_by (ask_from E k0 row) k x <-> exists j, (1 <= j <= k)%nat /\ made_tight E (k0 + j) x.
Proof.
  destruct k as [|k]; cbn [changed_by].
  - split; [intros []|intros (j & J & _); lia].
  - unfold ask_from. cbv zeta. cbn [ta_changed]. rewrite existsb_exists. split.
    + intros (j & I & H). apply in_seq in I. exists j. split; [lia|]. apply idx_tight_iff, H.
    + intros (j & J & H). exists j. split; [apply in_seq; lia|]. apply idx_tight_iff, H.
Qed.
Lemma picks_ext (P Q : nat -> nat -> Prop) : (forall k x, P k x <-> Q k x) -> forall k l t, picks P k l t -> picks Q k l t.
Proof.
  intros H k l t K. induction K; [apply picks_stop|apply picks_take|apply picks_skip]; try assumption; rewrite <- H; assumption.
Qed.
Lemma point_map h row lo sts : tl (point_new h row lo sts) = map (fun st => {| tr_kind := KPoint h false; tr_index := row; tr_st := st; tr_lo := lo |}) (tl sts).
Proof. destruct sts; reflexivity. Qed.

(** In the one-at-a-time mode, every solve after the first has one candidate as objective; the candidates are gone through in the given
    order, and one is skipped exactly if a later solve of this call, already made, had an optimal solution at which it is tight. *)
Theorem point_candidates : forall E h row s good s', no_objective (se_tp E) (ss_p s) -> se_mode E = 1%nat -> tightOnPoint E h row s = Some (good, s') ->
  let k0 := length (ss_tr s) in
  exists (first : tried) (later : list tried) (taken : list nat), ss_tr s' = ss_tr s ++ first :: later /\ tr_kind first = KPoint h true /\
    Forall2 (fun e idx => tr_kind e = KPoint h false /\ tr_index e = row /\ objective_is (se_tp E) (candidate_coef (se_tp E) idx) (tr_st e)) later taken /\
    picks (fun k idx => exists j, (1 <= j <= k)%nat /\ made_tight E (k0 + j) idx) 0 (so_cands (se_solve E k0)) taken.
Proof.
  intros E h row s good s' Z M H k0. unfold tightOnPoint in H. cbv zeta in H. fold k0 in H. rewrite M in H.
  destruct (findCutsTightOnPoint _ _ _ _ _ _ _) as [[[g p'] sts]|] eqn:F; [|discriminate]. injection H as <- <-. cbn [with_trace ss_tr with_p].
  set (d := se_tp E) in *. set (ask := ask_from E k0 row) in *. set (cands := so_cands (se_solve E k0)) in *.
  assert (K : exists s1 new sub, sts = s1 :: new /\ Forall2 (fun s1 idx => objective_is d (candidate_coef d idx) s1) new sub /\ picks (changed_by ask) 0 cands sub).
  { unfold findCutsTightOnPoint in F. cbv zeta in F. 
    destruct (_ || _); [injection F as _ _ <-; eexists _, [], []; split; [reflexivity|]; split; constructor|].
    destruct (_ || _); [injection F as _ _ <-; eexists _, [], []; split; [reflexivity|]; split; constructor|].
    destruct cands as [|idx rest] eqn:C; [injection F as _ _ <-; eexists _, [], []; split; [reflexivity|]; split; constructor|].
    destruct rest as [|y rest2] eqn:R; [injection F as _ _ <-; eexists _, [], []; split; [reflexivity|]; split; constructor|].
    rewrite <- R in *. cbn [Nat.eqb] in F.
    match type of F with context [loop_pos ?a ?b ?c ?e ?f ?g ?i ?j ?k ?l] => destruct (loop_pos a b c e f g i j k l) as [[[r5 s5] tr5]|] eqn:LP; [|discriminate] end.
    assert (OB : objective_is d (pval (vec_of d idx)) (add_vec d (vec_of d idx) 1 false
      (set_up (reset_at d (tp_row d row) (add_vec d (tp_row d row) 1 false (ss_p s))) row (tp_lo d row)))).
    { apply add_on_zero. intros j J. exact (reset_at_zero d _ _ (add_on_zero d (tp_row d row) (ss_p s) Z) j J). }
    injection F as _ _ <-. destruct (loop_picks d ask _ 0 _ _ _ _ _ idx _ _ _ (or_introl (conj eq_refl (conj OB (fun X => X)))) LP) as (new & sub & -> & F2 & PK).
    eexists _, new, sub. split; [reflexivity|]. split; [exact F2|exact PK]. }
  destruct K as (s1 & new & sub & -> & F2 & PK).
  eexists _, _, sub. split; [reflexivity|]. split; [reflexivity|]. split.
  - clear PK F. induction F2 as [|a b l m X F2 IH]; [constructor|]. constructor; [|exact IH]. split; [reflexivity|]. split; [reflexivity|exact X].
  - exact (picks_ext _ _ (changed_iff E k0 row) _ _ _ PK).
Qed.
Print Assumptions point_candidates.

(** Example: after the second solve (the first with a candidate as objective) column 0 is at its lower bound, so the candidate standing for
    that bound (number 5) is skipped; the last candidate is never reached. *)
Definition expE : senv := {| se_tp := exd59; se_rhs := fun i => if Nat.ltb i 3 then 1 else 0; se_mode := 1;
  se_par := {| sp_allones := 0; sp_bilinear := 0; sp_disjlb := 1; sp_points := 9; sp_perpoint := 9; sp_rays := 0; sp_units := 0; sp_cutlimit := 10; sp_probcols := 2 |};
  se_solve := fun k => {| so_code := 0; so_optimal := true; so_row := fun i => Nat.eqb i 0; so_lb := fun c => Nat.eqb k 1 && Nat.eqb c 0; so_ub := fun _ => false;
    so_obj := 0; so_sol := fun _ => 0; so_cands := [3; 5; 4; 6]%nat |};
  se_limit := fun _ => false; se_dirs := []; se_bil := 0; se_bilobj := fun _ => 0 |}.
Definition exs59 : sst := {| ss_p := exp59; ss_lo := fun _ => None; ss_row := fun _ => 0%Z; ss_clb := fun _ => 0%Z; ss_cub := fun _ => 0%Z; ss_tr := [];
  ss_code := 0; ss_np := 0; ss_nr := 0 |}.
Example point_candidates_example : no_objective (se_tp expE) (ss_p exs59) /\ se_mode expE = 1%nat /\
  made_tight expE 1 5 /\ ~ made_tight expE 1 4 /\
  option_map (fun p => (fst p, map (fun e => (tr_kind e, map (ps_obj (tr_st e)) [0; 1]%nat)) (ss_tr (snd p)))) (tightOnPoint expE TIGHT_POINTS 0 exs59) =
  Some (true, [(KPoint TIGHT_POINTS true, [1; 1]); (KPoint TIGHT_POINTS false, [1; -(1)]); (KPoint TIGHT_POINTS false, [-(1); 3])]).
Proof.
  split; [intros j _; reflexivity|]. split; [reflexivity|]. split.
  { split; [reflexivity|]. right. left. exists 0%nat. split; [cbn; lia|]. split; reflexivity. }
  split; [|vm_compute; reflexivity]. intros [_ [[_ H]|[(c & _ & H & _)|(c & _ & H)]]]; [discriminate H| |discriminate H].
  cbn in H. lia.
Qed.
