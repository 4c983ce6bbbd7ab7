(** C68: what the branch-and-bound drivers report, in terms of the events the solvers told them about. *)
From Coq Require Import String.
From Verif Require Import Prelude Model.Tolerance Model.TextUtil Model.LP Model.SolverHelper Model.BBInfo Model.Parameters
  Model.BBDrivers Spec.LPSpec Spec.DriverSpec Proofs.ToleranceP Properties.C67_DriverSettings.
#[local] Open Scope list_scope.

(** ** Gurobi. *)
Lemma value_ok : forall g n o x t, node_value g x == pass_value g (GNode n o x t).
Proof.
  intros g n o x t. unfold node_value, pass_value. cbn [pass_point].
  assert (G : forall l v, fold_left (fun v i => v + x i * gc_obj g i) l v == v + Qsumf (fun i => gc_obj g i * x i) l).
  { induction l as [|a l IH]; intro v; cbn [fold_left]; [unfold Qsumf; cbn [map Qsum]; ring|]. rewrite IH, Qsumf_cons. ring. }
  apply G.
Qed.
Lemma passes_app : forall a b, passes (a ++ b) = passes a ++ passes b. Proof. intros. apply filter_app. Qed.
Lemma mips_app : forall a b, mip_bounds (a ++ b) = mip_bounds a ++ mip_bounds b. Proof. intros. apply flat_map_app. Qed.
Lemma run_snoc : forall g evs e, grun g (evs ++ [e]) = gstep g (grun g evs) e.
Proof. intros. unfold grun. rewrite fold_left_app. reflexivity. Qed.
Lemma length_snoc : forall {A} (l : list A) a, List.length (l ++ [a]) = S (List.length l).
Proof. intros. rewrite app_length. cbn [List.length]. lia. Qed.
Lemma root_b : forall n, (n <=? 0)%Z = negb (0 <? n)%Z. Proof. intro n. destruct (Z.leb_spec n 0), (Z.ltb_spec 0 n); try lia; reflexivity. Qed.

(** The number of root passes, their last time and the iterations at the root. *)
Theorem gurobi_passes : forall g evs,
  gs_passes (grun g evs) = Z.of_nat (List.length (passes evs)) /\
  gs_time (grun g evs) = last (map pass_time (passes evs)) 0 /\
  gs_iters (grun g evs) = last (mip_iters evs) 0%Z.
Proof.
  intros g evs. induction evs as [|e evs IH] using rev_ind; [repeat split; reflexivity|].
  destruct IH as (P & T & I). rewrite run_snoc, passes_app, map_app. unfold mip_iters in *. rewrite flat_map_app.
  destruct e as [o t|n it b|n o x t|]; unfold passes in *; cbn [filter at_root flat_map gstep map app]; rewrite ?root_b, ?app_nil_r.
  - destruct (Qltb o _); cbn [gs_passes gs_time gs_iters]; auto.
  - destruct (0 <? n)%Z; cbn [negb app]; rewrite ?app_nil_r; [auto|].
    cbn [gs_passes]. assert (L : last (flat_map (fun e => match e with GMip n it _ => if (n <=? 0)%Z then [it] else [] | _ => [] end) evs ++ [it]) 0%Z = it) by apply last_last.
    destruct (gs_passes (grun g evs) =? 0)%Z; [cbn [gs_passes gs_time gs_iters]; auto|].
    destruct ((gs_passes (grun g evs) =? 1)%Z && _); cbn [gs_passes gs_time gs_iters]; auto.
  - destruct (0 <? n)%Z; cbn [negb app map]; rewrite ?app_nil_r; [auto|].
    rewrite length_snoc, last_last. destruct o; cbn [negb].
    + destruct (1 <? _)%Z; cbn [gs_passes gs_time gs_iters pass_time]; (split; [lia|auto]).
    + cbn [gs_passes gs_time gs_iters pass_time]; (split; [lia|auto]).
  - auto.
Qed.
Print Assumptions gurobi_passes.

(** The best solution and when it was first found. *)
Theorem gurobi_best_solution : forall g evs,
  (exists pre o t post, sols evs = pre ++ (o, t) :: post /\ o < gc_inf g /\ gs_obj (grun g evs) = o /\ gs_sol_time (grun g evs) = t /\
     Forall (fun p => o < fst p) pre /\ Forall (fun p => o <= fst p) post)
  \/ (Forall (fun p => gc_inf g <= fst p) (sols evs) /\ gs_obj (grun g evs) = gc_inf g /\ gs_sol_time (grun g evs) = 0).
Proof.
  intros g evs. induction evs as [|e evs IH] using rev_ind; [right; repeat split; constructor|].
  rewrite run_snoc. unfold sols in *. rewrite flat_map_app.
  assert (K : match e with GSol _ _ => True | _ => gs_obj (gstep g (grun g evs) e) = gs_obj (grun g evs) /\ gs_sol_time (gstep g (grun g evs) e) = gs_sol_time (grun g evs) end).
  { destruct e as [o t|n it b|n o x t|]; [exact Logic.I|..]; cbn [gstep].
    - destruct (0 <? n)%Z; [auto|]. cbn [gs_passes]. destruct (_ =? 0)%Z; [auto|]. destruct ((_ =? 1)%Z && _); auto.
    - destruct (0 <? n)%Z; [auto|]. destruct o; cbn [negb]; [|auto]. destruct (1 <? _)%Z; auto.
    - auto. }
  destruct e as [o t|n it b|n o x t|]; [|destruct K as [-> ->]; cbn [flat_map]; rewrite ?app_nil_r; exact IH..].
  cbn [flat_map gstep app]. destruct (Qltb_reflect o (gs_obj (grun g evs))) as [L|L]; cbn [gs_obj gs_sol_time].
  - left. eexists _, o, t, []. split; [reflexivity|]. destruct IH as [(pre & o' & t' & post & E & LI & EO & ET & A & B)|(A & EO & ET)].
    + rewrite EO in L. split; [apply Qlt_trans with o'; assumption|]. split; [reflexivity|]. split; [reflexivity|]. split; [|constructor].
      rewrite E. apply Forall_app. split; [eapply Forall_impl; [|exact A]; cbv beta; intros p Hp; apply Qlt_trans with o'; assumption|].
      constructor; [exact L|]. eapply Forall_impl; [|exact B]. cbv beta. intros p Hp. apply Qlt_le_trans with o'; assumption.
    + rewrite EO in L. split; [exact L|]. split; [reflexivity|]. split; [reflexivity|]. split; [|constructor].
      eapply Forall_impl; [|exact A]. cbv beta. intros p Hp. apply Qlt_le_trans with (gc_inf g); assumption.
  - destruct IH as [(pre & o' & t' & post & E & LI & EO & ET & A & B)|(A & EO & ET)].
    + left. exists pre, o', t', (post ++ [(o, t)]). rewrite E. split; [rewrite <- app_assoc; reflexivity|].
      rewrite EO in L |- *. split; [exact LI|]. split; [reflexivity|]. split; [exact ET|]. split; [exact A|]. apply Forall_app.
      split; [exact B|constructor; [apply Qnot_lt_le, L|constructor]].
    + right. rewrite EO in L |- *. split; [|auto]. apply Forall_app. split; [exact A|constructor; [apply Qnot_lt_le, L|constructor]].
Qed.
Print Assumptions gurobi_best_solution.

(** The cuts are handed over once, at the first root pass, if its relaxation was solved to optimality. *)
Theorem gurobi_cuts_added : forall g evs,
  gs_added (grun g evs) =
  match passes evs with
  | p :: _ => if pass_optimal p then gurobi_cuts (gc_cuts g) (gc_lazy g) else []
  | [] => []
  end.
Proof.
  intros g evs. induction evs as [|e evs IH] using rev_ind; [reflexivity|].
  destruct (gurobi_passes g evs) as (P & _ & _). rewrite run_snoc, passes_app.
  destruct e as [o t|n it b|n o x t|]; unfold passes in *; cbn [filter at_root gstep]; rewrite ?root_b, ?app_nil_r.
  - destruct (Qltb o _); exact IH.
  - destruct (0 <? n)%Z; [exact IH|]. cbn [gs_passes]. destruct (_ =? 0)%Z; [exact IH|]. destruct ((_ =? 1)%Z && _); exact IH.
  - destruct (0 <? n)%Z; cbn [negb]; [rewrite app_nil_r; exact IH|]. rewrite P.
    destruct (filter at_root evs) as [|p r]; cbn [app List.length].
    + cbn [pass_optimal]. destruct o; cbn [negb gs_added]; [|exact IH]. change (1 <? Z.of_nat 0 + 1)%Z with false. cbn [gs_added]. rewrite IH. reflexivity.
    + replace (1 <? Z.of_nat (S (List.length r)) + 1)%Z with true by (symmetry; apply Z.ltb_lt; lia).
      destruct o; exact IH.
  - exact IH.
Qed.
Print Assumptions gurobi_cuts_added.
(** "the cuts are handed over in every run that reaches a root pass". *)
Theorem gurobi_cuts_added_refuted : exists g evs, gc_cuts g <> Some [] /\ gc_cuts g <> None /\ (2 <= List.length (passes evs))%nat /\
  Exists (fun e => pass_optimal e = true) (passes evs) /\ gs_added (grun g evs) = [].
Proof.
  exists {| gc_inf := 10; gc_vars := 0; gc_offset := 0; gc_obj := fun _ => 0; gc_lazy := false;
            gc_cuts := Some [{| oc_row := [(0%nat, 1)]; oc_lb := Some 1; oc_ub := None |}] |},
         [GNode 0 false (fun _ => 0) 1; GNode 0 true (fun _ => 0) 2].
  split; [discriminate|]. split; [discriminate|]. split; [cbn; lia|]. split; [right; left; reflexivity|reflexivity].
Qed.
Print Assumptions gurobi_cuts_added_refuted.

(** The LP value and the values of the first and the last cut pass: without a root pass, the last bound heard of at the root. *)
Lemma no_pass_state : forall g evs, passes evs = [] ->
  let v := last (mip_bounds evs) (- gc_inf g) in
  gs_lp (grun g evs) = v /\ gs_first (grun g evs) = v /\ gs_last (grun g evs) = v /\ gs_set (grun g evs) = false.
Proof.
  intros g evs. induction evs as [|e evs IH] using rev_ind; [intros _; repeat split; reflexivity|].
  rewrite passes_app. intro E. apply app_eq_nil in E as [E1 E2]. destruct (gurobi_passes g evs) as (P & _ & _). rewrite E1 in P. cbn in P.
  specialize (IH E1). cbv zeta in *. rewrite run_snoc, mips_app.
  destruct e as [o t|n it b|n o x t|]; unfold mip_bounds in *; cbn [gstep flat_map]; rewrite ?app_nil_r.
  - destruct (Qltb o _); exact IH.
  - rewrite root_b. destruct (0 <? n)%Z; cbn [negb app]; rewrite ?app_nil_r; [exact IH|]. cbn [gs_passes]. rewrite P. cbn [Z.eqb].
    rewrite last_last. cbn [gs_lp gs_first gs_last gs_set]. split; [reflexivity|split; [reflexivity|split; [reflexivity|apply IH]]].
  - unfold passes in E2. cbn [filter at_root] in E2. rewrite root_b in E2. destruct (0 <? n)%Z; [exact IH|discriminate].
  - exact IH.
Qed.
Theorem gurobi_no_pass : forall g evs, passes evs = [] ->
  let v := last (mip_bounds evs) (- gc_inf g) in
  gs_lp (grun g evs) = v /\ gs_first (grun g evs) = v /\ gs_last (grun g evs) = v.
Proof. intros g evs E. destruct (no_pass_state g evs E) as (A & B & C & _). cbv zeta. auto. Qed.
Print Assumptions gurobi_no_pass.

Definition base_value (g : gcb) (a : list gevent) (p : gevent) : Q := if pass_optimal p then pass_value g p else last (mip_bounds a) (- gc_inf g).
Lemma one_pass_state : forall g a p b, passes a = [] -> at_root p = true -> passes b = [] ->
  let s := grun g (a ++ p :: b) in let base := base_value g a p in
  gs_lp s == base /\ gs_first s == hd base (mip_bounds b) /\ gs_last s == hd base (mip_bounds b) /\
  gs_set s = match mip_bounds b with [] => false | _ => true end.
Proof.
  intros g a p b A R. destruct (no_pass_state g a A) as (S1 & S2 & S3 & S4). cbv zeta in *.
  induction b as [|e b IH] using rev_ind; intro B.
  - rewrite run_snoc. destruct p as [o t|n it q|n o x t|]; try discriminate R. unfold base_value. cbn [gstep pass_optimal mip_bounds flat_map hd at_root] in *.
    rewrite root_b in R. destruct (0 <? n)%Z; [discriminate|]. destruct (gurobi_passes g a) as (P & _ & _). rewrite A in P. cbn in P. rewrite P. change (1 <? 0 + 1)%Z with false.
    destruct o; cbn [negb gs_lp gs_first gs_last gs_set].
    + rewrite (value_ok g n true x t). split; [reflexivity|]. split; [reflexivity|]. split; [reflexivity|exact S4].
    + rewrite S1, S2, S3. split; [reflexivity|]. split; [reflexivity|]. split; [reflexivity|exact S4].
  - rewrite passes_app in B. apply app_eq_nil in B as [B1 B2]. specialize (IH B1). destruct IH as (I1 & I2 & I3 & I4).
    replace (a ++ p :: b ++ [e]) with ((a ++ p :: b) ++ [e]) by (rewrite <- app_assoc; reflexivity). rewrite run_snoc, mips_app.
    assert (P : gs_passes (grun g (a ++ p :: b)) = 1%Z).
    { destruct (gurobi_passes g (a ++ p :: b)) as (P & _ & _). rewrite P. change (p :: b) with ([p] ++ b). rewrite !passes_app, A, B1, app_nil_r. unfold passes. cbn [filter app]. rewrite R. reflexivity. }
    destruct e as [o t|n it q|n o x t|]; cbn [gstep].
    + change (mip_bounds [GSol o t]) with (@nil Q). rewrite app_nil_r. destruct (Qltb o _); auto.
    + unfold mip_bounds at 2 4 6. cbn [flat_map]. rewrite root_b. destruct (0 <? n)%Z; cbn [negb app]; rewrite ?app_nil_r; [auto|].
      cbn [gs_passes gs_set]. rewrite P. cbn [Z.eqb Pos.eqb andb]. rewrite I4. unfold mip_bounds in *.
      destruct (flat_map _ b) as [|u r] eqn:E; cbn [negb gs_lp gs_first gs_last gs_set app hd].
      * split; [exact I1|split; [reflexivity|split; reflexivity]].
      * cbn [hd] in I2, I3. auto.
    + unfold passes in B2. cbn [filter at_root] in B2. rewrite root_b in B2. change (mip_bounds [GNode n o x t]) with (@nil Q). rewrite app_nil_r.
      destruct (0 <? n)%Z; [auto|discriminate].
    + change (mip_bounds [GOther]) with (@nil Q). rewrite app_nil_r. auto.
Qed.
(** One pass: the LP value is the value of that pass (if it was solved); the value of the cut pass is the first bound heard of after it,
    or the LP value if there was none. *)
Theorem gurobi_one_pass : forall g a p b, passes a = [] -> at_root p = true -> passes b = [] ->
  let s := grun g (a ++ p :: b) in let base := if pass_optimal p then pass_value g p else last (mip_bounds a) (- gc_inf g) in
  gs_lp s == base /\ gs_first s == hd base (mip_bounds b) /\ gs_last s == hd base (mip_bounds b).
Proof. intros g a p b A R B. destruct (one_pass_state g a p b A R B) as (E1 & E2 & E3 & _). cbv zeta. auto. Qed.
Print Assumptions gurobi_one_pass.
(** "we will store the value of the last time the MIP cb is entered with root_passes == 1" (comment): it is the first time. *)
Theorem gurobi_one_pass_refuted : exists g a p b u v, passes a = [] /\ at_root p = true /\ passes b = [] /\
  mip_bounds b = [u; v] /\ ~ gs_last (grun g (a ++ p :: b)) == v.
Proof.
  exists {| gc_inf := 10; gc_vars := 0; gc_offset := 0; gc_obj := fun _ => 0; gc_lazy := false; gc_cuts := None |}, [], (GNode 0 true (fun _ => 0) 1),
    [GMip 0 1 1; GMip 0 2 2], 1, 2. do 4 (split; [reflexivity|]). vm_compute. discriminate.
Qed.
Print Assumptions gurobi_one_pass_refuted.

(** Two or more passes: the first cut pass is the second pass, the last cut pass the last one that was solved. *)
Lemma last_cons_default : forall {A} (l : list A) a d, last (a :: l) d = last l a.
Proof. intros A l. induction l as [|x l IH]; intros a d; [reflexivity|]. change (last (a :: x :: l) d) with (last (x :: l) d). rewrite IH, IH. reflexivity. Qed.
Theorem gurobi_more_passes : forall g a p b q c, passes a = [] -> at_root p = true -> passes b = [] -> at_root q = true ->
  let s := grun g (a ++ p :: b ++ q :: c) in let base := if pass_optimal p then pass_value g p else last (mip_bounds a) (- gc_inf g) in
  let one := hd base (mip_bounds b) in
  gs_lp s == base /\ gs_first s == (if pass_optimal q then pass_value g q else one) /\
  gs_last s == last (map (pass_value g) (filter pass_optimal (passes (q :: c)))) one.
Proof.
  intros g a p b q c A R B R'. destruct (one_pass_state g a p b A R B) as (S1 & S2 & S3 & _). fold (base_value g a p). cbv zeta in *.
  set (base := base_value g a p) in *. set (one := hd base (mip_bounds b)) in *.
  assert (P : gs_passes (grun g (a ++ p :: b)) = 1%Z).
  { destruct (gurobi_passes g (a ++ p :: b)) as (P & _ & _). rewrite P. change (p :: b) with ([p] ++ b). rewrite !passes_app, A, B, app_nil_r. unfold passes. cbn [filter app]. rewrite R. reflexivity. }
  assert (G : forall c, let s := grun g ((a ++ p :: b) ++ q :: c) in (2 <= gs_passes s)%Z /\ gs_lp s == base /\ gs_first s == (if pass_optimal q then pass_value g q else one) /\
     gs_last s == last (map (pass_value g) (filter pass_optimal (passes (q :: c)))) one).
  2:{ replace (a ++ p :: b ++ q :: c) with ((a ++ p :: b) ++ q :: c) by (rewrite <- app_assoc; reflexivity). apply (G c). }
  clear c. intro c. cbv zeta. induction c as [|e c IH] using rev_ind.
  - rewrite run_snoc. set (s := grun g (a ++ p :: b)) in *. unfold passes. cbn [filter]. rewrite R'. destruct q as [o t|n it u|n o x t|]; try discriminate R'.
    cbn [gstep pass_optimal at_root filter map last] in *. rewrite root_b in R'. destruct (0 <? n)%Z; [discriminate|]. rewrite P. change (1 <? 1 + 1)%Z with true. change (1 + 1 =? 2)%Z with true.
    destruct o; cbn [negb gs_passes gs_lp gs_first gs_last map last].
    + split; [lia|]. split; [exact S1|]. split; apply value_ok.
    + split; [lia|]. auto.
  - set (m := a ++ p :: b) in *. replace (m ++ q :: c ++ [e]) with ((m ++ q :: c) ++ [e]) by (rewrite <- app_assoc; reflexivity). rewrite run_snoc.
    change (q :: c ++ [e]) with ((q :: c) ++ [e]). rewrite passes_app. set (s := grun g (m ++ q :: c)) in *. destruct IH as (I0 & I1 & I2 & I3).
    destruct e as [o t|n it u|n o x t|]; cbn [gstep]; unfold passes at 2; cbn [filter at_root]; rewrite ?root_b, ?app_nil_r.
    + destruct (Qltb o _); auto.
    + destruct (0 <? n)%Z; [auto|]. cbn [gs_passes]. destruct (Z.eqb_spec (gs_passes s) 0); [lia|]. destruct (Z.eqb_spec (gs_passes s) 1); [lia|]. auto.
    + destruct (0 <? n)%Z; cbn [negb]; rewrite ?app_nil_r; [auto|]. rewrite filter_app, map_app. cbn [filter pass_optimal].
      replace (1 <? gs_passes s + 1)%Z with true by (symmetry; apply Z.ltb_lt; lia).
      destruct (Z.eqb_spec (gs_passes s + 1) 2); [lia|].
      destruct o; cbn [negb gs_passes gs_lp gs_first gs_last map app]; rewrite ?app_nil_r.
      * split; [lia|]. split; [exact I1|]. split; [exact I2|]. rewrite last_last. apply value_ok.
      * split; [lia|]. auto.
    + auto.
Qed.
Print Assumptions gurobi_more_passes.

(** If the values heard of at the root never go down, neither do the three values reported. *)
Definition root_values (g : gcb) (evs : list gevent) : list Q :=
  flat_map (fun e => match e with
                     | GMip n _ b => if (n <=? 0)%Z then [b] else []
                     | GNode n o _ _ => if ((n <=? 0)%Z && o)%bool then [pass_value g e] else []
                     | _ => []
                     end) evs.
Inductive nondecreasing : Q -> list Q -> Prop :=
| nd_nil v : nondecreasing v []
| nd_cons v w l : v <= w -> nondecreasing w l -> nondecreasing v (w :: l).
Theorem gurobi_order : forall g evs, nondecreasing (- gc_inf g) (root_values g evs) ->
  let s := grun g evs in gs_lp s <= gs_first s /\ gs_first s <= gs_last s.
Proof.
  intros g evs. unfold grun.
  assert (G : forall evs s v, nondecreasing v (root_values g evs) -> gs_lp s <= gs_first s -> gs_first s <= gs_last s -> gs_last s <= v ->
     let s := fold_left (gstep g) evs s in gs_lp s <= gs_first s /\ gs_first s <= gs_last s).
  { clear evs. induction evs as [|e evs IH]; intros s v N H1 H2 H3; [split; assumption|]. cbn [fold_left]. cbv zeta in *.
    unfold root_values in N. cbn [flat_map] in N. destruct e as [o t|n it u|n o x t|].
    - apply (IH _ v N); cbn [gstep]; destruct (Qltb o _); assumption.
    - rewrite root_b in N. cbn [gstep]. destruct (0 <? n)%Z; cbn [negb app] in N; [apply (IH _ v N); assumption|].
      inversion N as [|? ? ? L N' E1]. subst. cbn [gs_passes]. assert (H4 : gs_last s <= u) by (apply Qle_trans with v; assumption).
      destruct (gs_passes s =? 0)%Z; [apply (IH _ u N'); apply Qle_refl|].
      destruct ((_ =? 1)%Z && _); [apply (IH _ u N'); cbn [gs_lp gs_first gs_last gs_set]; try apply Qle_refl|apply (IH _ u N'); cbn [gs_lp gs_first gs_last]; assumption].
      apply Qle_trans with (gs_first s); [assumption|]. apply Qle_trans with (gs_last s); assumption.
    - rewrite root_b in N. cbn [gstep]. destruct (0 <? n)%Z; cbn [negb andb app] in N; [apply (IH _ v N); assumption|].
      destruct o; cbn [negb]; cbn [app] in N; [|apply (IH _ v N); assumption].
      inversion N as [|? ? ? L N' E1]. subst. pose proof (value_ok g n true x t) as V. set (w := pass_value g _) in *.
      assert (H4 : gs_last s <= w) by (apply Qle_trans with v; assumption).
      destruct (1 <? _)%Z; [|apply (IH _ w N'); cbn [gs_lp gs_first gs_last]; try apply Qle_refl; rewrite V; apply Qle_refl].
      destruct (_ =? 2)%Z; apply (IH _ w N'); cbn [gs_lp gs_first gs_last]; rewrite ?V; try apply Qle_refl; try assumption; lra.
    - apply (IH _ v N); assumption. }
  intro N. apply (G evs (gst0 g) (- gc_inf g) N); apply Qle_refl.
Qed.
Print Assumptions gurobi_order.

(** What a run with cuts reports: the objective, the bound, the totals are those of the run; the root columns are the callback's if there
    was a root pass; the objective and the totals if there was neither a pass nor a node; otherwise the last bound heard of at the root. *)
Theorem gurobi_reported : forall g evs info, let r := gurobi_report info (grun g evs) in let s := grun g evs in
  (bb_obj r = bb_obj info /\ bb_bound r = bb_bound info /\ bb_iters r = bb_iters info /\ bb_nodes r = bb_nodes info /\ bb_time r = bb_time info /\
   bb_root_passes r = Z.of_nat (List.length (passes evs)) /\ bb_last_sol_time r = gs_sol_time s) /\
  (passes evs <> [] -> bb_first_cut_pass r = gs_first s /\ bb_last_cut_pass r = gs_last s /\
     bb_root_iters r = last (mip_iters evs) 0%Z /\ bb_root_time r = last (map pass_time (passes evs)) 0) /\
  (passes evs = [] -> bb_nodes info = 0%Z -> bb_first_cut_pass r = bb_obj info /\ bb_last_cut_pass r = bb_obj info /\
     bb_root_iters r = bb_iters info /\ bb_root_time r = bb_time info) /\
  (passes evs = [] -> bb_nodes info <> 0%Z -> let v := last (mip_bounds evs) (- gc_inf g) in
     bb_first_cut_pass r = v /\ bb_last_cut_pass r = v /\ bb_root_iters r = last (mip_iters evs) 0%Z /\ bb_root_time r = 0).
Proof.
  intros g evs info. cbv zeta. destruct (gurobi_passes g evs) as (P & T & I). unfold gurobi_report. rewrite P.
  destruct (Z.ltb_spec 0 (Z.of_nat (List.length (passes evs)))) as [L|L].
  - split; [repeat split; reflexivity|]. split; [intros _; cbn; auto|]. split; intro E; rewrite E in L; cbn in L; lia.
  - assert (E : passes evs = []) by (destruct (passes evs); [reflexivity|cbn [List.length] in L; lia]).
    destruct (no_pass_state g evs E) as (N1 & _). cbv zeta in N1. rewrite E in T. cbn in T.
    destruct (Z.eqb_spec (bb_nodes info) 0) as [Z0|Z0].
    + split; [repeat split; reflexivity|]. split; [congruence|]. split; [repeat split; reflexivity|contradiction].
    + split; [repeat split; reflexivity|]. split; [congruence|]. split; [contradiction|]. intros _ _. cbn. auto.
Qed.
Print Assumptions gurobi_reported.

(** Statuses: the model is solved a second time exactly when the first answer is "infeasible or unbounded" and presolve was not switched
    off; the run counts unless the last answer is infeasible, unbounded, one of the two, or none of the known ones. *)
Theorem gurobi_statuses : forall k s best ans,
  let again := ans O = GInfOrUnbd /\ ~ on s b_presolve_off in
  let bad st := In st [GInfeasible; GUnbounded; GInfOrUnbd; GOtherStatus] in
  (again -> gurobi_status k s best ans = Some (2%nat, ans 1%nat) \/ (gurobi_status k s best ans = None /\ bad (ans 1%nat))) /\
  (again -> gurobi_status k s best ans <> None -> ~ bad (ans 1%nat)) /\
  (~ again -> gurobi_status k s best ans = Some (1%nat, ans O) \/ (gurobi_status k s best ans = None /\ bad (ans O))) /\
  (~ again -> gurobi_status k s best ans <> None -> ~ bad (ans O)).
Proof.
  assert (LS : forall l n d, last_set l n d = match final l n with Some v => v | None => d end).
  { induction l as [|c l IH]; intros n d; [reflexivity|]. destruct c as [m v|f]; cbn [last_set final]; rewrite IH; [|destruct (final l n); reflexivity].
    destruct (final l n); [reflexivity|]. destruct (String.eqb m n); reflexivity. }
  intros k s best ans. cbv zeta. destruct (gurobi_settings k s best) as (_ & _ & _ & _ & _ & _ & [F1 F2] & _).
  unfold gurobi_status. rewrite LS.
  assert (D : {on s b_presolve_off} + {~ on s b_presolve_off}).
  { unfold on. destruct (Z_lt_dec 0 s) as [A|A], (bool_dec (Z.testbit s b_presolve_off) true) as [B|B]; [left; auto|right; tauto..]. }
  destruct D as [D|D]; [rewrite (F1 D)|rewrite (F2 D)]; change (Qeq_bool 0 0) with true; change (Qeq_bool (-(1)) 0) with false; cbn [negb].
  - split; [tauto|]. split; [tauto|]. destruct (ans O); cbn [In]; split; intros _; (auto; try (intro H; exfalso; apply H; reflexivity)); try (right; split; [reflexivity|tauto]); try (intros _ H; intuition discriminate).
  - destruct (ans O) eqn:A0.
    3:{ split; [intros _|split; [intros _|split; tauto]]; destruct (ans 1%nat); cbn [In]; auto;
        try (right; split; [reflexivity|tauto]); try (intro H; exfalso; apply H; reflexivity); try (intros _ H; intuition discriminate). }
    all: (split; [intros [H _]; discriminate|]); (split; [intros [H _]; discriminate|]); cbn [In]; split; intros _; auto;
         try (right; split; [reflexivity|tauto]); try (intro H; exfalso; apply H; reflexivity); try (intros _ H; intuition discriminate).
Qed.
Print Assumptions gurobi_statuses.
(** The solution handed back has the reported objective value, to the tolerance. *)
Theorem gurobi_solution_value : forall offset c x reported y,
  gurobi_solution offset c x reported = Some y ->
  y = x /\ Qabs (offset + Qsumf (fun i => c i * nth i x 0) (seq 0 (List.length x)) - reported) < EPS7.
Proof.
  intros offset c x reported y. unfold gurobi_solution.
  assert (G : forall l v, fold_left (fun v i => v + nth i x 0 * c i) l v == v + Qsumf (fun i => c i * nth i x 0) l).
  { induction l as [|a l IH]; intro v; cbn [fold_left]; [unfold Qsumf; cbn [map Qsum]; ring|]. rewrite IH, Qsumf_cons. ring. }
  destruct (isVal _ reported EPS7) eqn:E; [|discriminate]. cbn [negb]. intros [= <-]. split; [reflexivity|].
  apply isVal_iff in E. rewrite G in E. exact E.
Qed.
Print Assumptions gurobi_solution_value.
Example gurobi_meet :
  let g := {| gc_inf := 100; gc_vars := 1; gc_offset := 1; gc_obj := fun _ => 2; gc_lazy := false; gc_cuts := None |} in
  let evs := [GMip 0 0 (-(5)); GNode 0 true (fun _ => 1) 1; GMip 0 7 4; GSol 20 2; GNode 0 true (fun _ => 2) 3; GSol 9 4; GNode 0 true (fun _ => 3) 5; GSol 9 6; GNode 1 true (fun _ => 9) 7] in
  let s := grun g evs in
  (gs_lp s, gs_first s, gs_last s, gs_passes s, gs_obj s, gs_sol_time s, gs_iters s) = (1 + 1 * 2, 1 + 2 * 2, 1 + 3 * 2, 3%Z, 9, 4, 7%Z) /\
  nondecreasing (- gc_inf g) (root_values g evs).
Proof. cbv zeta. split; [vm_compute; reflexivity|]. repeat (apply nd_cons; [vm_compute; discriminate|]). apply nd_nil. Qed.

(** ** CPLEX. *)
Lemma crun_snoc : forall inf i evs e, crun inf i (evs ++ [e]) = cstep (crun inf i evs) e.
Proof. intros. unfold crun. rewrite fold_left_app. reflexivity. Qed.
Lemma cut_frame : forall i n w b t it, let r := cstep i (CCut n w b t it) in
  bb_obj r = bb_obj i /\ bb_last_sol_time r = bb_last_sol_time i.
Proof. intros i n w b t it. cbn [cstep]. cbv zeta. destruct (1 <? n)%Z; [auto|]. destruct w; try (split; reflexivity). destruct (unbounded _); split; reflexivity. Qed.
Lemma info_frame : forall i o t, let r := cstep i (CInfo o t) in
  bb_root_passes r = bb_root_passes i /\ bb_first_cut_pass r = bb_first_cut_pass i /\ bb_last_cut_pass r = bb_last_cut_pass i /\
  bb_root_iters r = bb_root_iters i /\ bb_root_time r = bb_root_time i.
Proof. intros i [o|] t; cbn [cstep]; cbv zeta; [destruct (Qltb _ _); repeat split; reflexivity|repeat split; reflexivity]. Qed.

(** The passes are the cut loops at the root. *)
Theorem cplex_passes : forall inf i evs, bb_root_passes (crun inf i evs) = (bb_root_passes i + Z.of_nat (List.length (loops evs)))%Z.
Proof.
  intros inf i evs. induction evs as [|e evs IH] using rev_ind; [cbn; lia|]. rewrite crun_snoc. unfold loops in *. rewrite filter_app, app_length.
  destruct e as [o t|n w b t it].
  - destruct (info_frame (crun inf i evs) o t) as (-> & _). cbn [filter List.length]. lia.
  - cbn [cstep filter]. cbv zeta. destruct (Z.ltb_spec 1 n).
    + replace (match w with CutLoop => (n =? 0)%Z | _ => false end) with false by (destruct w; try reflexivity; symmetry; apply Z.eqb_neq; lia). cbn [List.length]. lia.
    + destruct w; [|destruct (unbounded _)|]; cbn [bb_root_passes with_root]; try (destruct (n =? 0)%Z); cbn [List.length]; lia.
Qed.
Print Assumptions cplex_passes.

(** The objective is, within the tolerance, that of the last incumbent reported; the time is the one of the report it was taken from,
    and every report since then was within the tolerance of it. *)
Theorem cplex_incumbent : forall inf i evs, let r := crun inf i evs in
  exists pre post, incumbents evs = pre ++ post /\ Forall (fun p => Qabs (bb_obj r - fst p) <= EPS7) post /\
    ((pre = [] /\ bb_obj r = bb_obj i /\ bb_last_sol_time r = bb_last_sol_time i) \/
     exists pre', pre = pre' ++ [(bb_obj r, bb_last_sol_time r)]).
Proof.
  intros inf i evs. cbv zeta. induction evs as [|e evs IH] using rev_ind.
  - exists [], []. split; [reflexivity|]. split; [constructor|]. left. repeat split; reflexivity.
  - rewrite crun_snoc. unfold incumbents in *. rewrite flat_map_app. destruct e as [o t|n w b t it].
    2:{ destruct (cut_frame (crun inf i evs) n w b t it) as [-> ->]. cbn [flat_map]. rewrite app_nil_r. exact IH. }
    destruct o as [o|]; [|cbn [cstep flat_map]; rewrite app_nil_r; exact IH]. cbn [cstep flat_map app].
    destruct (Qltb_reflect EPS7 (Qabs (bb_obj (crun inf i evs) - o))) as [L|L].
    + eexists _, []. split; [symmetry; apply app_nil_r|]. split; [constructor|]. right. eexists. cbn [with_sol bb_obj bb_last_sol_time]. reflexivity.
    + destruct IH as (pre & post & E & F & C). exists pre, (post ++ [(o, t)]). split; [rewrite E, app_assoc; reflexivity|]. split; [|exact C].
      apply Forall_app. split; [exact F|]. constructor; [apply Qnot_lt_le, L|constructor].
Qed.
Print Assumptions cplex_incumbent.
(** "the time of the last solution is reported": a first solution with objective value 0 leaves no trace. *)
Theorem cplex_incumbent_refuted : forall inf t, bb_last_sol_time (crun inf bb_zero [CInfo (Some 0) t]) = 0.
Proof. intros inf t. reflexivity. Qed.
Print Assumptions cplex_incumbent_refuted.

(** The value of the last cut pass, the iterations and the time at the root: from the first end of the cut loop. *)
Definition cut_bounds (evs : list cevent) : list Q := flat_map (fun e => match e with CCut n _ b _ _ => if (n <=? 1)%Z then [b] else [] | _ => [] end) evs.
Lemma unb_true : forall q, unbounded q = true <-> ~ is_bounded q.
Proof. intro q. rewrite <- unbounded_spec, negb_true_iff. destruct (unbounded q); intuition congruence. Qed.
Lemma unb_false : forall q, is_bounded q -> unbounded q = false.
Proof. intros q H. apply unbounded_spec in H. apply negb_true_iff, H. Qed.
Lemma unb_opp : forall q, ~ is_bounded q -> unbounded (- q) = true.
Proof. intros q H. apply unb_true. unfold is_bounded in *. rewrite Qabs_opp. exact H. Qed.
Theorem cplex_last_pass : forall inf i evs, ~ is_bounded inf -> Forall is_bounded (cut_bounds evs) ->
  let r := crun inf i evs in
  match ends evs with
  | [] => bb_last_cut_pass r = - inf /\ bb_root_time r = bb_root_time i /\ bb_root_iters r = bb_root_iters i
  | (b, t, it) :: _ => bb_last_cut_pass r = b /\ bb_root_time r = t /\ bb_root_iters r = it
  end.
Proof.
  intros inf i evs U. cbv zeta. induction evs as [|e evs IH] using rev_ind; [intros _; repeat split; reflexivity|].
  unfold cut_bounds, ends in *. rewrite !flat_map_app. intro F. apply Forall_app in F as [F1 F2]. specialize (IH F1). rewrite crun_snoc.
  set (r := crun inf i evs) in *. destruct e as [o t|n w b t it].
  { destruct (info_frame r o t) as (_ & _ & -> & -> & ->). cbn [flat_map]. rewrite app_nil_r. exact IH. }
  assert (N1 : (n <=? 1)%Z = negb (1 <? n)%Z) by (destruct (Z.leb_spec n 1), (Z.ltb_spec 1 n); try lia; reflexivity).
  cbn [cstep flat_map]. cbv zeta. rewrite N1. destruct (1 <? n)%Z; cbn [negb].
  { destruct w; rewrite ?app_nil_r; exact IH. }
  destruct w; cbn [with_root bb_last_cut_pass bb_root_time bb_root_iters app]; rewrite ?app_nil_r; try exact IH.
  assert (B0 : Forall (fun p => is_bounded (fst (fst p))) (flat_map (fun e => match e with CCut n CutLast b t it => if (n <=? 1)%Z then [(b, t, it)] else [] | _ => [] end) evs)).
  { clear -F1. induction evs as [|e evs IH]; [constructor|]. cbn [flat_map] in *. apply Forall_app in F1 as [F F']. apply Forall_app. split; [|apply IH, F'].
    destruct e as [|n w b t it]; [constructor|]. destruct w; try constructor. destruct (n <=? 1)%Z; [|constructor]. inversion F. constructor; [assumption|constructor]. }
  destruct (flat_map _ evs) as [|[[b' t'] it'] rest]; cbn [app].
  - destruct IH as (E & _ & _). rewrite E. rewrite unb_opp by exact U. repeat split; reflexivity.
  - destruct IH as (E1 & E2 & E3). inversion B0 as [|? ? H _]. cbn [fst] in H. rewrite <- E1 in H. rewrite unb_false by exact H. cbn [with_root bb_last_cut_pass bb_root_time bb_root_iters]. auto.
Qed.
Print Assumptions cplex_last_pass.
(** "the bound after the root cuts is reported": if the cut loop never ends (limit), minus infinity is. *)
Theorem cplex_last_pass_refuted : forall inf i b t it, ~ is_bounded inf -> is_bounded b -> bb_root_passes i = 0%Z ->
  let r := cplex_report (crun inf i [CCut 0 CutLoop b t it; CCut 0 CutLoop b t it]) in
  bb_root_passes r = 2%Z /\ bb_first_cut_pass r = b /\ bb_last_cut_pass r = - inf.
Proof.
  intros inf i b t it U B P. cbv zeta.
  assert (H := cplex_last_pass inf i [CCut 0 CutLoop b t it; CCut 0 CutLoop b t it] U). cbv zeta in H. cbn [ends flat_map app] in H.
  specialize (H ltac:(repeat constructor; exact B)). destruct H as (H & _).
  assert (H' : bb_root_passes (crun inf i [CCut 0 CutLoop b t it; CCut 0 CutLoop b t it]) = 2%Z) by (rewrite cplex_passes, P; reflexivity).
  unfold cplex_report. rewrite H'. change (2 =? 0)%Z with false. split; [exact H'|]. split; [|exact H].
  unfold crun. cbn [fold_left cstep]. cbv zeta. change (1 <? 0)%Z with false. change (0 =? 0)%Z with true. cbn [cstart with_root bb_root_passes bb_first_cut_pass].
  rewrite P. change (0 =? 1)%Z with false. change (0 + 1 =? 1)%Z with true. cbn [andb]. rewrite unb_opp by exact U. reflexivity.
Qed.
Print Assumptions cplex_last_pass_refuted.

(** The value of the first cut pass: the bound of the first event that ends the cut loop or comes after exactly one cut loop. *)
Definition shows_first (pre : list cevent) (e : cevent) : Prop :=
  match e with CCut n w _ _ _ => (n <= 1)%Z /\ (w = CutLast \/ List.length (loops pre) = 1%nat) | _ => False end.
Definition event_bound (e : cevent) : Q := match e with CCut _ _ b _ _ => b | _ => 0 end.
Theorem cplex_first_pass : forall inf i evs, ~ is_bounded inf -> Forall is_bounded (cut_bounds evs) -> bb_root_passes i = 0%Z ->
  let r := crun inf i evs in
  (bb_first_cut_pass r = - inf /\ forall pre e post, evs = pre ++ e :: post -> ~ shows_first pre e) \/
  (exists pre e post, evs = pre ++ e :: post /\ shows_first pre e /\ bb_first_cut_pass r = event_bound e /\ is_bounded (event_bound e) /\
     forall pre' e' post', pre = pre' ++ e' :: post' -> ~ shows_first pre' e').
Proof.
  intros inf i evs U. cbv zeta. induction evs as [|e evs IH] using rev_ind.
  { intros _ _. left. split; [reflexivity|]. intros [|? ?] e post E; discriminate. }
  unfold cut_bounds in *. rewrite flat_map_app. intros F P0. apply Forall_app in F as [F1 F2]. specialize (IH F1 P0). rewrite crun_snoc.
  pose proof (cplex_passes inf i evs) as P. rewrite P0 in P. cbn [Z.add] in P. set (r := crun inf i evs) in *.
  destruct IH as [[E N]|(pre & e0 & post & E & S0 & V & B & N)].
  2:{ right. exists pre, e0, (post ++ [e]). split; [rewrite E, <- app_assoc; reflexivity|]. split; [exact S0|]. split; [|split; [exact B|exact N]].
      destruct e as [o t|n w b t it]; [destruct (info_frame r o t) as (_ & -> & _); exact V|]. cbn [cstep]. cbv zeta.
      rewrite V. rewrite (unb_false _ B). rewrite andb_false_r.
      destruct (1 <? n)%Z; [exact V|]. destruct w; try reflexivity. destruct (unbounded (bb_last_cut_pass r)); cbn [with_root bb_first_cut_pass]; rewrite ?(unb_false _ B); reflexivity. }
  assert (KEEP : ~ shows_first evs e -> forall pre e' post, evs ++ [e] = pre ++ e' :: post -> ~ shows_first pre e').
  { intros S0 pre e' post D. destruct post as [|x post] using rev_ind.
    - apply app_inj_tail in D as [<- <-]. exact S0.
    - clear IHpost. rewrite app_comm_cons, app_assoc in D. apply app_inj_tail in D as [D _]. apply (N _ _ _ D). }
  destruct e as [o t|n w b t it].
  { left. destruct (info_frame r o t) as (_ & -> & _). split; [exact E|]. apply KEEP. intro H. exact H. }
  cbn [cstep]. cbv zeta. destruct (Z.ltb_spec 1 n) as [L|L].
  { left. split; [exact E|]. apply KEEP. intros [H _]. lia. }
  cbn [flat_map] in F2. replace (n <=? 1)%Z with true in F2 by (symmetry; apply Z.leb_le; exact L). inversion F2 as [|? ? B _]. 
  rewrite E, unb_opp by exact U. rewrite andb_true_r, P.
  destruct (Z.eqb_spec (Z.of_nat (List.length (loops evs))) 1) as [O1|O1].
  - right. exists evs, (CCut n w b t it), []. split; [reflexivity|]. split; [split; [exact L|right; lia]|]. split; [|split; [exact B|exact N]].
    destruct w; try reflexivity. destruct (unbounded (bb_last_cut_pass r)); cbn [with_root bb_first_cut_pass event_bound]; rewrite ?(unb_false _ B); reflexivity.
  - assert (LL : w = CutLast -> unbounded (bb_last_cut_pass r) = true).
    { clear KEEP. intros ->. assert (HH := cplex_last_pass inf i evs U F1). cbv zeta in HH. fold r in HH.
      destruct (ends evs) as [|[[b' t'] it'] rest] eqn:EE; [destruct HH as (-> & _); apply unb_opp, U|exfalso].
      clear - N EE. unfold ends in EE. assert (NE : ends evs <> []) by (unfold ends; rewrite EE; discriminate). clear EE. unfold ends in NE. revert N NE. induction evs as [|e evs IHe] using rev_ind; [intros _ X; apply X; reflexivity|]. rewrite flat_map_app. intros N EE.
      destruct (flat_map _ evs) as [|p q] eqn:Q.
      + cbn [app flat_map] in EE. destruct e as [|n w b t it]; [apply EE; reflexivity|]. destruct w; try (apply EE; reflexivity). destruct (Z.leb_spec n 1); [|apply EE; reflexivity].
        apply (N evs (CCut n CutLast b t it) []); [reflexivity|]. split; [assumption|left; reflexivity].
      + apply IHe; [|discriminate]. intros pre e' post D. apply (N pre e' (post ++ [e])). rewrite D, <- app_assoc. reflexivity. }
    destruct w; cbn [with_root bb_first_cut_pass].
    + left. split; [reflexivity|]. apply KEEP. intros [_ [HH|HH]]; [discriminate|lia].
    + right. exists evs, (CCut n CutLast b t it), []. split; [reflexivity|]. split; [split; [exact L|left; reflexivity]|]. split; [|split; [exact B|exact N]].
      rewrite LL by reflexivity. cbn [with_root bb_first_cut_pass event_bound]. rewrite unb_opp by exact U. reflexivity.
    + left. split; [reflexivity|]. apply KEEP. intros [_ [HH|HH]]; [discriminate|lia].
Qed.
Print Assumptions cplex_first_pass.

(** If the bounds never go down, the first value is at most the last. *)
Theorem cplex_order : forall inf i evs, ~ is_bounded inf -> Forall is_bounded (cut_bounds evs) -> bb_root_passes i = 0%Z ->
  (forall pre e mid e' post, evs = pre ++ e :: mid ++ e' :: post -> event_bound e <= event_bound e') -> ends evs <> [] ->
  bb_first_cut_pass (crun inf i evs) <= bb_last_cut_pass (crun inf i evs).
Proof.
  intros inf i evs U B P M NE.
  assert (D : exists pre n b t it post, evs = pre ++ CCut n CutLast b t it :: post /\ (n <= 1)%Z /\ ends pre = []).
  { clear - NE. unfold ends in *. induction evs as [|e evs IH]; [exfalso; apply NE; reflexivity|]. cbn [flat_map] in NE.
    assert (X : (exists n b t it, e = CCut n CutLast b t it /\ (n <= 1)%Z) \/ (match e with CCut n CutLast b t it => if (n <=? 1)%Z then [(b, t, it)] else [] | _ => [] end) = []).
    { destruct e as [|n w b t it]; [auto|]. destruct w; auto. destruct (Z.leb_spec n 1); [left; eauto 8|auto]. }
    destruct X as [(n & b & t & it & -> & L)|X]; [exists [], n, b, t, it, evs; auto|].
    rewrite X in NE. destruct (IH NE) as (pre & n & b & t & it & post & -> & L & E). exists (e :: pre), n, b, t, it, post. split; [reflexivity|]. split; [exact L|].
    cbn [flat_map]. rewrite X, E. reflexivity. }
  destruct D as (pre & n & b & t & it & post & E & L & N).
  assert (V : bb_last_cut_pass (crun inf i evs) = b).
  { assert (EV : ends evs = (b, t, it) :: ends post).
    { rewrite E. unfold ends in *. rewrite flat_map_app, N. cbn [app flat_map]. replace (n <=? 1)%Z with true by (symmetry; apply Z.leb_le; exact L). reflexivity. }
    assert (H := cplex_last_pass inf i evs U B). cbv zeta in H. rewrite EV in H. apply H. }
  rewrite V. assert (S0 : shows_first pre (CCut n CutLast b t it)) by (split; [exact L|left; reflexivity]).
  destruct (cplex_first_pass inf i evs U B P) as [[_ F]|(pre' & e' & post' & E' & S' & -> & _ & F)]; [exfalso; apply (F _ _ _ E S0)|].
  rewrite E in E'. 
  assert (T : (exists mid, pre = pre' ++ e' :: mid) \/ (pre = pre' /\ CCut n CutLast b t it = e') \/ exists mid, pre' = pre ++ CCut n CutLast b t it :: mid).
  { clear - E'. revert pre' E'. induction pre as [|x pre IH]; intros [|y pre'] E'; cbn [app] in E'.
    - injection E' as <- _. auto.
    - injection E' as <- _. right. right. exists pre'. reflexivity.
    - injection E' as <- _. left. exists pre. reflexivity.
    - injection E' as <- E'. destruct (IH pre' E') as [[m ->]|[[-> ->]|[m ->]]]; [left; exists m; reflexivity|right; left; auto|right; right; exists m; reflexivity]. }
  destruct T as [[mid ->]|[[-> <-]|[mid ->]]]; [|apply Qle_refl|exfalso; apply (F _ _ _ eq_refl S0)].
  apply (M pre' e' mid (CCut n CutLast b t it) post). rewrite E, <- app_assoc. reflexivity.
Qed.
Print Assumptions cplex_order.

(** Without a cut loop at the root the objective and the whole time are reported for the root; the objective and the bound are the run's. *)
Theorem cplex_reported : forall i, let r := cplex_report i in
  bb_obj r = bb_obj i /\ bb_bound r = bb_bound i /\ bb_nodes r = bb_nodes i /\ bb_iters r = bb_iters i /\ bb_time r = bb_time i /\ bb_root_passes r = bb_root_passes i /\
  (bb_root_passes i = 0%Z -> bb_first_cut_pass r = bb_obj i /\ bb_last_cut_pass r = bb_obj i /\ bb_root_time r = bb_time i) /\
  (bb_root_passes i <> 0%Z -> r = i).
Proof.
  intro i. cbv zeta. unfold cplex_report. destruct (Z.eqb_spec (bb_root_passes i) 0) as [E|E].
  - do 6 (split; [reflexivity|]). split; [intros _; repeat split; reflexivity|contradiction].
  - do 6 (split; [reflexivity|]). split; [contradiction|reflexivity].
Qed.
Print Assumptions cplex_reported.
(** Statuses: as for Gurobi. *)
Theorem cplex_statuses : forall k s best ans st,
  cplex_status k s best ans = Some st <->
  (st = (if match ans O with CInfOrUnbd => negb ((0 <? s)%Z && Z.testbit s b_presolve_off) | _ => false end then ans 1%nat else ans O) /\
   ~ In st [CInfeasible; CUnbounded; CInfOrUnbd; COtherStatus]).
Proof.
  assert (LS : forall l n d, last_set l n d = match final l n with Some v => v | None => d end).
  { induction l as [|c l IH]; intros n d; [reflexivity|]. destruct c as [m v|f]; cbn [last_set final]; rewrite IH; [|destruct (final l n); reflexivity].
    destruct (final l n); [reflexivity|]. destruct (String.eqb m n); reflexivity. }
  intros k s best ans st. destruct (cplex_settings k s best) as (_ & _ & _ & _ & _ & _ & [F1 F2] & _).
  unfold cplex_status. rewrite LS. cbv zeta.
  assert (D : on s b_presolve_off <-> (0 <? s)%Z && Z.testbit s b_presolve_off = true) by (unfold on; rewrite andb_true_iff, Z.ltb_lt; reflexivity).
  destruct ((0 <? s)%Z && Z.testbit s b_presolve_off).
  - rewrite F1 by (apply D; reflexivity). change (Qeq_bool 0 0) with true. cbn [negb].
    destruct (ans O), st; cbn [In]; split; intro H; try discriminate; try (destruct H as [H1 H2]; try discriminate; exfalso; apply H2; tauto); try (split; [reflexivity|intuition discriminate]); try reflexivity.
  - rewrite F2 by (intro H; apply D in H; discriminate). change (Qeq_bool 1 0) with false. cbn [negb].
    destruct (ans O); try (destruct (ans 1%nat)); destruct st; cbn [In]; split; intro H; try discriminate; try (destruct H as [H1 H2]; try discriminate; exfalso; apply H2; tauto); try (split; [reflexivity|intuition discriminate]); try reflexivity.
Qed.
Print Assumptions cplex_statuses.
(** "the objective reported is that of a solution, or infinite": after a limit without any solution it is 0. *)
Theorem cplex_no_solution_refuted : forall inf evs bound iters nodes time, incumbents evs = [] ->
  bb_obj (cplex_report (cplex_finish CLimitInfeas (crun inf bb_zero evs) 0 bound iters nodes time)) = 0.
Proof.
  intros inf evs bound iters nodes time E. destruct (cplex_reported (cplex_finish CLimitInfeas (crun inf bb_zero evs) 0 bound iters nodes time)) as (-> & _).
  cbn [cplex_finish bb_obj]. destruct (cplex_incumbent inf bb_zero evs) as (pre & post & E' & _ & H). rewrite E in E'. symmetry in E'. apply app_eq_nil in E' as [-> _].
  destruct H as [(_ & -> & _)|[pre' H]]; [reflexivity|]. symmetry in H. apply app_eq_nil in H as [_ H]. discriminate.
Qed.
Print Assumptions cplex_no_solution_refuted.
Example cplex_meet :
  let evs := [CCut 0 CutLoop 1 1 5; CCut 0 CutLoop 2 2 6; CInfo (Some 9) 3; CCut 0 CutLast 3 4 7; CInfo (Some 8) 5; CCut 1 CutLast 4 6 8; CInfo (Some 8) 7] in
  let r := cplex_report (crun DBL_MAX bb_zero evs) in
  (bb_root_passes r, bb_first_cut_pass r, bb_last_cut_pass r, bb_root_iters r, bb_obj r, bb_last_sol_time r) = (2%Z, 2, 3, 7%Z, 8, 5) /\
  ~ is_bounded DBL_MAX /\ Forall is_bounded (cut_bounds evs) /\ ends evs <> [].
Proof.
  cbv zeta. split; [vm_compute; reflexivity|]. split; [intro H; vm_compute in H; apply H; reflexivity|]. split; [|discriminate].
  repeat (constructor; [vm_compute; discriminate|]). constructor.
Qed.

(** ** Cbc. *)
(** The run survives exactly when no event sees cuts; then the passes are the rounds of cuts generated at the root, the bound is the last
    one, and the time of the last solution is that of the last event before one. *)
Definition generated (e : bevent) : bool := match be_kind e with KGenerated => (be_nodes e =? 0)%Z | _ => false end.
Definition solution_times (evs : list bevent) : list Q := flat_map (fun e => match be_kind e with KBeforeSolution => [be_seconds e] | _ => [] end) evs.
Lemma bstep_some : forall s e s', bstep s e = Some s' -> (be_cuts e <= 0)%Z /\ bs_lp s' = bs_lp s /\ bb_bound (bs_info s') = be_bound e /\
  bb_root_passes (bs_info s') = (bb_root_passes (bs_info s) + if generated e then 1 else 0)%Z /\
  bb_last_sol_time (bs_info s') = match be_kind e with KBeforeSolution => be_seconds e | _ => bb_last_sol_time (bs_info s) end.
Proof.
  intros s e s'. unfold bstep, generated. cbv zeta. destruct (Z.ltb_spec 0 (be_cuts e)) as [L|L]; [discriminate|]. intros [= <-]. split; [exact L|]. split; [reflexivity|]. cbn [bs_info].
  destruct ((be_nodes e =? 0)%Z && _); destruct (be_kind e); cbn [with_sol with_root with_bound bb_bound bb_root_passes bb_last_sol_time];
    try destruct (be_nodes e <=? 1)%Z; try destruct (be_nodes e =? 0)%Z; cbn [with_sol with_root with_bound bb_bound bb_root_passes bb_last_sol_time];
    try destruct (bb_root_passes (bs_info s) =? 0)%Z; cbn [with_sol with_root with_bound bb_bound bb_root_passes bb_last_sol_time]; (split; [reflexivity|split; [lia|reflexivity]]).
Qed.
Lemma bstep_none : forall s e, bstep s e = None <-> (0 < be_cuts e)%Z.
Proof. intros s e. unfold bstep. cbv zeta. destruct (Z.ltb_spec 0 (be_cuts e)); split; intro H0; try discriminate; try reflexivity; lia. Qed.
Theorem cbc_run : forall evs,
  (brun bst0 evs = None <-> Exists (fun e => 0 < be_cuts e)%Z evs) /\
  forall s, brun bst0 evs = Some s ->
    bs_lp s = None /\ bb_root_passes (bs_info s) = Z.of_nat (List.length (filter generated evs)) /\
    bb_bound (bs_info s) = last (map be_bound evs) 0 /\ bb_last_sol_time (bs_info s) = last (solution_times evs) 0.
Proof.
  intro evs.
  assert (N : forall evs s, brun s evs = None <-> Exists (fun e => 0 < be_cuts e)%Z evs).
  { clear evs. induction evs as [|e evs IH]; intro s; cbn [brun]; [split; [discriminate|intro H; inversion H]|].
    rewrite Exists_cons, <- (bstep_none s e). destruct (bstep s e) as [s'|] eqn:E; [|tauto]. rewrite IH. split; [auto|]. intros [H|H]; [discriminate|exact H]. }
  split; [apply N|].
  assert (G : forall evs s s', brun s evs = Some s' -> bs_lp s' = bs_lp s /\ bb_root_passes (bs_info s') = (bb_root_passes (bs_info s) + Z.of_nat (List.length (filter generated evs)))%Z /\
     bb_bound (bs_info s') = last (map be_bound evs) (bb_bound (bs_info s)) /\ bb_last_sol_time (bs_info s') = last (solution_times evs) (bb_last_sol_time (bs_info s))).
  { clear evs N. induction evs as [|e evs IH]; intros s s' H; cbn [brun] in H; [injection H as <-; cbn; repeat split; lia|].
    destruct (bstep s e) as [s1|] eqn:E; [|discriminate]. destruct (bstep_some s e s1 E) as (_ & E1 & E2 & E3 & E4). destruct (IH s1 s' H) as (-> & -> & -> & ->).
    split; [exact E1|]. split; [rewrite E3; cbn [filter]; destruct (generated e); cbn [List.length]; lia|].
    split; [cbn [map]; rewrite last_cons_default, E2; reflexivity|]. unfold solution_times. cbn [flat_map]. rewrite E4. destruct (be_kind e); try reflexivity. cbn [app]. rewrite last_cons_default. reflexivity. }
  intros s H. destruct (G evs bst0 s H) as (A & B & C & D). auto.
Qed.
Print Assumptions cbc_run.
(** "a run with cuts ends normally": it does not if any event sees a cut in the problem. *)
Theorem cbc_run_refuted : exists evs, brun bst0 evs = None.
Proof. exists [{| be_kind := KGenerated; be_nodes := 0; be_bound := 1; be_cuts := 2; be_iters := 3; be_seconds := 1 |}]. reflexivity. Qed.
Print Assumptions cbc_run_refuted.

(** With two or more rounds at the root: the first value is the bound at the second round, the last that of the last round. *)
Theorem cbc_rounds : forall a g1 b g2 c s, filter generated a = [] -> generated g1 = true -> filter generated b = [] -> generated g2 = true ->
  brun bst0 (a ++ g1 :: b ++ g2 :: c) = Some s ->
  bb_first_cut_pass (bs_info s) = be_bound g2 /\ bb_last_cut_pass (bs_info s) = last (map be_bound (filter generated (g2 :: c))) 0.
Proof.
  assert (SP : forall u v x y, brun x (u ++ v) = Some y -> exists z, brun x u = Some z /\ brun z v = Some y).
  { induction u as [|e u IH]; intros v x y H; [exists x; auto|]. cbn [app brun] in *. destruct (bstep x e) as [x'|]; [apply IH, H|discriminate]. }
  assert (PS : forall u x y, brun x u = Some y -> bb_root_passes (bs_info y) = (bb_root_passes (bs_info x) + Z.of_nat (List.length (filter generated u)))%Z).
  { induction u as [|e u IH]; intros x y H; cbn [brun] in H; [injection H as <-; cbn; lia|]. destruct (bstep x e) as [x'|] eqn:E; [|discriminate].
    destruct (bstep_some x e x' E) as (_ & _ & _ & E3 & _). rewrite (IH x' y H), E3. cbn [filter]. destruct (generated e); cbn [List.length]; lia. }
  assert (AF : forall u x y, (2 <= bb_root_passes (bs_info x))%Z -> brun x u = Some y ->
     bb_first_cut_pass (bs_info y) = bb_first_cut_pass (bs_info x) /\ bb_last_cut_pass (bs_info y) = last (map be_bound (filter generated u)) (bb_last_cut_pass (bs_info x))).
  { induction u as [|e u IH]; intros x y P H; cbn [brun] in H; [injection H as <-; auto|]. destruct (bstep x e) as [x'|] eqn:E; [|discriminate].
    destruct (bstep_some x e x' E) as (_ & _ & _ & E3 & _).
    assert (F : bb_first_cut_pass (bs_info x') = bb_first_cut_pass (bs_info x) /\ bb_last_cut_pass (bs_info x') = if generated e then be_bound e else bb_last_cut_pass (bs_info x)).
    { revert E. unfold bstep, generated. cbv zeta. destruct (0 <? be_cuts e)%Z; [discriminate|]. intros [= <-]. cbn [bs_info with_bound bb_root_passes].
      destruct (Z.eqb_spec (bb_root_passes (bs_info x)) 1); [lia|]. rewrite andb_false_r.
      destruct (be_kind e); cbn [with_bound with_root with_sol bb_first_cut_pass bb_last_cut_pass bb_root_passes]; auto.
      - destruct (be_nodes e <=? 1)%Z; cbn [with_bound with_root bb_first_cut_pass bb_last_cut_pass bb_root_passes]; auto.
        destruct (Z.eqb_spec (bb_root_passes (bs_info x)) 0); [lia|]. auto.
      - destruct (be_nodes e =? 0)%Z; auto. }
    destruct (IH x' y ltac:(destruct (generated e); lia) H) as [-> ->]. destruct F as [-> F]. split; [reflexivity|].
    cbn [filter]. destruct (generated e); cbn [map]; rewrite ?last_cons_default, F; reflexivity. }
  intros a g1 b g2 c s A G1 B G2 H. apply SP in H as (x & X1 & X2). change (g1 :: b ++ g2 :: c) with ((g1 :: b) ++ g2 :: c) in X2. apply SP in X2 as (y & Y1 & Y2).
  pose proof (PS _ _ _ X1) as P1. rewrite A in P1. cbn in P1. pose proof (PS _ _ _ Y1) as P2. cbn [filter] in P2. rewrite G1, B in P2. cbn [List.length] in P2.
  cbn [brun] in Y2. destruct (bstep y g2) as [z|] eqn:E; [|discriminate]. destruct (bstep_some y g2 z E) as (_ & _ & _ & E3 & _). rewrite G2 in E3.
  destruct (AF c z s ltac:(lia) Y2) as [-> ->].
  assert (F : bb_first_cut_pass (bs_info z) = be_bound g2 /\ bb_last_cut_pass (bs_info z) = be_bound g2).
  { revert E G2. unfold bstep, generated. cbv zeta. destruct (0 <? be_cuts g2)%Z; [discriminate|]. intros [= <-]. cbn [bs_info with_bound bb_root_passes].
    replace (bb_root_passes (bs_info y)) with 1%Z by lia. change (1 =? 1)%Z with true. rewrite andb_true_r. destruct (be_kind g2); try discriminate. intros ->. split; reflexivity. }
  destruct F as [-> ->]. split; [reflexivity|]. cbn [filter]. rewrite G2. cbn [map]. rewrite last_cons_default. reflexivity.
Qed.
Print Assumptions cbc_rounds.

(** What is reported: the handler's values if there was a round of cuts at the root, the objective if there was no node at all;
    otherwise ("the LP value") the two values are those of a variable that is never given a value. *)
Theorem cbc_reported : forall evs s info, brun bst0 evs = Some s ->
  let k := List.length (filter generated evs) in
  (k <> O -> fst (cbc_report info s) = Some (bb_first_cut_pass (bs_info s), bb_last_cut_pass (bs_info s))) /\
  (k = O -> bb_nodes info = 0%Z -> fst (cbc_report info s) = Some (bb_obj info, bb_obj info)).
Proof.
  intros evs s info H. destruct (cbc_run evs) as [_ R]. destruct (R s H) as (_ & P & _). cbv zeta. unfold cbc_report. rewrite P.
  split; intro K.
  - destruct (Z.ltb_spec 0 (Z.of_nat (List.length (filter generated evs)))); [reflexivity|lia].
  - intro N. rewrite K, N. reflexivity.
Qed.
Print Assumptions cbc_reported.
Theorem cbc_reported_refuted : forall evs s info, brun bst0 evs = Some s -> filter generated evs = [] -> bb_nodes info <> 0%Z ->
  fst (cbc_report info s) = None.
Proof.
  intros evs s info H K N. destruct (cbc_run evs) as [_ R]. destruct (R s H) as (L & P & _). unfold cbc_report. rewrite P, K. cbn [List.length Z.of_nat Z.ltb Z.compare].
  destruct (Z.eqb_spec (bb_nodes info) 0); [contradiction|]. rewrite L. reflexivity.
Qed.
Print Assumptions cbc_reported_refuted.
(** "the overload with a file name solves that file": it reads the file of the parameter FILENAME. *)
Theorem cbc_file_refuted : exists f FILENAME, cbc_file f FILENAME <> f.
Proof. exists (txt "a.mps"), (txt "b.mps"). discriminate. Qed.
Print Assumptions cbc_file_refuted.
Example cbc_meet :
  let e k n b := {| be_kind := k; be_nodes := n; be_bound := b; be_cuts := 0; be_iters := 3; be_seconds := b |} in
  exists s, brun bst0 [e KOther 0%Z 1; e KGenerated 0%Z 2; e KOther 0%Z 3; e KGenerated 0%Z 4; e KBeforeSolution 0%Z 5; e KGenerated 0%Z 6; e KNode 1%Z 7] = Some s /\
    (bb_root_passes (bs_info s), bb_first_cut_pass (bs_info s), bb_last_cut_pass (bs_info s), bb_last_sol_time (bs_info s), bb_bound (bs_info s)) = (3%Z, 4, 6, 5, 7).
Proof. cbv zeta. eexists. split; [vm_compute; reflexivity|reflexivity]. Qed.
