(** C25: every owned object is released exactly once. *)
From Verif Require Import Prelude Model.Ownership Proofs.OwnershipP.
From Coq Require Import Permutation.

(** ** The cut generator. *)
Definition mentions (g : gen) (a : nat) : Prop := m_disj g = Ptr a \/ m_set g = Ptr a.
(** Disciplined use: no copy; assignment only from a generator that owns nothing and has no PRLP; a disjunction
    (set) is set only when no set (disjunction) is there, from a live object of the user, or to NULL without
    owning; the user deletes only his objects and only when no generator refers to them. *)
Definition disciplined (p : prog) (c : cmd) : Prop :=
  match c with
  | UNew k => k = KDisj \/ k = KSet
  | UDelete a => In a (p_mine p) /\ forall i g, the_gen p i = Some g -> ~ mentions g a
  | GNew => True
  | GCopy _ => False
  | GAssign i j => exists g s, the_gen p i = Some g /\ the_gen p j = Some s /\
                     (i <> j -> m_owns s = Some false /\ m_prlp s = Null /\ (m_set g = Null \/ m_owns g = Some false))
  | GSetDisj i src o => exists g, the_gen p i = Some g /\ m_set g = Null /\ src_ok g (p_mine p) src o
  | GSetSet i src o => exists g, the_gen p i = Some g /\ m_disj g = Null /\ src_ok g (p_mine p) src o
  | GGenerate i _ => exists g, the_gen p i = Some g
  | GDestroy i => exists g, the_gen p i = Some g
  end.
Inductive history : prog -> Prop :=
| h_start : history prog0
| h_step p c p' : history p -> disciplined p c -> exec_cmd p c = Some p' -> history p'.

Lemma nd_l {A} (l l' : list A) : NoDup (l ++ l') -> NoDup l.
Proof. induction l as [|x l IH]; intro N; [constructor|]. inversion N; subst. constructor; [intro H; match goal with K : ~ In x _ |- _ => apply K end; apply in_or_app; left; exact H|auto]. Qed.
Lemma nd_r {A} (l l' : list A) : NoDup (l ++ l') -> NoDup l'.
Proof. induction l as [|x l IH]; intro N; [exact N|]. inversion N; subst. auto. Qed.
Lemma in_gens p i g : the_gen p i = Some g -> In (Some g) (p_gens p).
Proof. intro H. destruct (the_gen_split _ _ _ H) as (l1 & l2 & -> & _). apply in_or_app. right. left. reflexivity. Qed.
Lemma gens_in p g : In (Some g) (p_gens p) -> exists i, the_gen p i = Some g.
Proof. intro H. apply In_nth_error in H. destruct H as (i & H). exists i. unfold the_gen. rewrite H. reflexivity. Qed.

Lemma step_ok p c : inv p -> disciplined p c -> exists p', exec_cmd p c = Some p' /\ inv p'.
Proof.
  intros IV D. destruct c as [k|a| |i|i j|i src o|i src o|i c|i]; cbn [exec_cmd disciplined] in *.
  - unfold alloc. eexists. split; [reflexivity|]. destruct IV as [C OK]. split; cbn [p_heap p_mine p_gens].
    + apply (cells_alloc k), C.
    + intros g Hg. apply (gen_ok_mono (p_heap p) _ (p_mine p)); [apply (sk_alloc k)|intros a _ Ha; right; exact Ha|apply OK, Hg].
  - destruct D as [HA HM]. destruct IV as [C OK].
    assert (ND : NoDup (p_mine p)) by (destruct C as (N & _); unfold roots in N; apply (nd_l _ _ N)).
    assert (PM : Permutation (p_mine p) (a :: remove Nat.eq_dec a (p_mine p))).
    { apply NoDup_Permutation; [exact ND| |].
      - constructor; [apply remove_In|]. clear - ND. induction (p_mine p) as [|x l IH]; [constructor|]. inversion ND; subst. cbn [remove]. destruct (Nat.eq_dec a x); [apply IH; assumption|].
        constructor; [|apply IH; assumption]. intro H. apply in_remove in H. destruct H. contradiction.
      - intro x. split; intro H; [destruct (Nat.eq_dec x a) as [->|N]; [left; reflexivity|right; apply in_in_remove; assumption]|]. destruct H as [<-|H]; [exact HA|apply in_remove in H; apply H]. }
    assert (C1 : cells (p_heap p) (a :: remove Nat.eq_dec a (p_mine p) ++ flat_map gen_roots (p_gens p))).
    { apply (cells_perm _ (roots p)); [|exact C]. unfold roots. rewrite PM at 1. reflexivity. }
    destruct (cells_free _ _ _ C1) as (h' & -> & C2 & K). eexists. split; [reflexivity|]. split; cbn [p_heap p_mine p_gens]; [exact C2|].
    intros g Hg. apply (gen_ok_mono (p_heap p) _ (p_mine p)); [exact K| |apply OK, Hg]. intros b Hb Hm. apply in_in_remove; [|exact Hm]. intros ->.
    destruct (gens_in _ _ Hg) as (i & Hi). apply (HM i g Hi). unfold mentions. apply in_app_or in Hb.
    destruct Hb as [Hb|Hb]; [left; destruct (m_disj g)|right; destruct (m_set g)]; cbn [addr] in Hb; try destruct Hb as [->|[]]; try destruct Hb; reflexivity.
  - cbn [init_new raw_gen m_prlp del add_gen]. eexists. split; [reflexivity|]. destruct IV as [C OK]. split; cbn [p_heap p_mine p_gens].
    + unfold roots in *. cbn [p_mine p_gens]. rewrite flat_map_app. cbn [flat_map gen_roots owned m_owns addr m_prlp app]. rewrite app_nil_r. exact C.
    + intros g Hg. apply in_app_or in Hg. destruct Hg as [Hg|[E|[]]]; [apply OK, Hg|]. injection E as <-. split; cbn [m_disj m_set m_prlp m_owns]; try discriminate; [auto|]. intros _ a [].
  - destruct D.
  - destruct D as (g & s & Eg & Es & H). destruct (Nat.eqb_spec i j) as [->|N]; [exists p; split; [reflexivity|exact IV]|]. rewrite Eg, Es. destruct (H N) as (S1 & S2 & S3).
    apply (with_gen_inv p i g); [exact IV|exact Eg|]. intros rest MI C. destruct IV as [_ OK].
    apply assign_effect; auto; [apply OK, (in_gens _ _ _ Eg)|apply OK, (in_gens _ _ _ Es)].
  - destruct D as (g & Eg & SN & SO). rewrite Eg. apply (with_gen_inv p i g); [exact IV|exact Eg|]. intros rest MI C. apply set_disj_effect; auto. apply IV, (in_gens _ _ _ Eg).
  - destruct D as (g & Eg & SN & SO). rewrite Eg. apply (with_gen_inv p i g); [exact IV|exact Eg|]. intros rest MI C. apply set_set_effect; auto. apply IV, (in_gens _ _ _ Eg).
  - destruct D as (g & Eg). rewrite Eg. apply (with_gen_inv p i g); [exact IV|exact Eg|]. intros rest MI C. apply generate_effect; auto. apply IV, (in_gens _ _ _ Eg).
  - destruct D as (g & Eg). rewrite Eg. destruct (the_gen_split _ _ _ Eg) as (l1 & l2 & EL & ->). destruct IV as [C OK].
    pose proof (cells_perm _ _ _ (roots_split p l1 (Some g) l2 EL) C) as C1.
    destruct (destroy_ok _ _ _ _ (OK g (in_gens _ _ _ Eg)) C1) as (h' & -> & C2 & K). eexists. split; [reflexivity|]. rewrite EL, put_mid. split; cbn [p_heap p_mine p_gens].
    + apply (cells_perm _ _ _ (Permutation_sym (roots_split {| p_heap := h'; p_mine := p_mine p; p_gens := l1 ++ None :: l2 |} l1 None l2 eq_refl))). exact C2.
    + intros x Hx. apply (gen_ok_mono (p_heap p) h' (p_mine p)); auto. apply OK. rewrite EL. apply in_app_or in Hx. apply in_or_app. destruct Hx as [Hx|[Hx|Hx]]; [left; exact Hx|discriminate|right; right; exact Hx].
Qed.
Lemma history_inv p : history p -> inv p.
Proof.
  induction 1 as [|p c p' H IH D E].
  - split; [|intros g []]. split; [constructor|]. split; [intros a []|]. intros a L. destruct a; discriminate.
  - destruct (step_ok p c IH D) as (q & E' & I). congruence.
Qed.

(** No undefined behaviour: a disciplined call never frees or uses a dead object, NULL or an uninitialised
    member, after any disciplined history. *)
Theorem disciplined_use_is_safe : forall p c, history p -> disciplined p c -> exec_cmd p c <> None.
Proof. intros p c H D. destruct (step_ok p c (history_inv p H) D) as (q & E & _). congruence. Qed.
Print Assumptions disciplined_use_is_safe.

(** What disj() and disjSet() return can be used. *)
Theorem accessors_live : forall p i g a, history p -> the_gen p i = Some g -> mentions g a -> live (p_heap p) a = true.
Proof.
  intros p i g a H Eg M. destruct (history_inv p H) as [C OK]. specialize (OK g (in_gens _ _ _ Eg)).
  assert (Ha : In a (addr (m_disj g) ++ addr (m_set g))) by (apply in_or_app; destruct M as [-> | ->]; [left|right]; left; reflexivity).
  apply C. unfold roots. apply in_or_app. destruct (m_owns g) as [[|]|] eqn:EO; [right|left; apply (ok_user _ _ _ OK EO), Ha|destruct (ok_owns _ _ _ OK EO)].
  apply in_flat_map. exists (Some g). split; [apply (in_gens _ _ _ Eg)|]. unfold gen_roots, owned. rewrite EO. apply in_or_app. left. exact Ha.
Qed.
Print Assumptions accessors_live.

(** Nothing but PRLPs is left when the generators are gone and the user has deleted what he created; at
    any time every live disjunction or set is the user's or owned by exactly one generator. *)
Theorem disjunctions_released : forall p, history p -> (forall i, the_gen p i = None) -> p_mine p = [] ->
  forall a, live (p_heap p) a = true -> kind_of (p_heap p) a = Some KPrlp.
Proof.
  intros p H G M a L. destruct (history_inv p H) as [C _]. destruct (kind_of (p_heap p) a) as [k|] eqn:E; [|unfold kind_of, live in *; destruct (nth_error (p_heap p) a); discriminate].
  destruct k; try reflexivity; exfalso; (assert (I : In a (roots p)) by (apply C; [exact L|rewrite E; discriminate])); unfold roots in I; rewrite M in I; cbn [app] in I;
    apply in_flat_map in I; destruct I as ([g|] & Hg & I); try destruct I; destruct (gens_in _ _ Hg) as (i & Hi); rewrite G in Hi; discriminate.
Qed.
Print Assumptions disjunctions_released.
Theorem one_owner : forall p a, history p -> live (p_heap p) a = true -> kind_of (p_heap p) a <> Some KPrlp ->
  (In a (p_mine p) /\ forall i g, the_gen p i = Some g -> m_owns g = Some true -> ~ mentions g a) \/
  (exists i g, the_gen p i = Some g /\ m_owns g = Some true /\ mentions g a /\ ~ In a (p_mine p) /\
     forall j g', the_gen p j = Some g' -> mentions g' a -> j = i).
Proof.
  intros p a H L K. destruct (history_inv p H) as [C OK]. pose proof (proj2 (proj2 C) a L K) as IR. destruct C as (ND & _ & _). unfold roots in *.
  assert (OWN : forall i g, the_gen p i = Some g -> m_owns g = Some true -> mentions g a -> In a (gen_roots (Some g))).
  { intros i g _ EO M. unfold gen_roots, owned. rewrite EO. apply in_or_app. left. apply in_or_app. destruct M as [-> | ->]; [left|right]; left; reflexivity. }
  assert (DIS : forall (x : nat) l l', NoDup (l ++ l') -> In x l -> In x l' -> False).
  { clear. intros x l. induction l as [|y l IH]; [intros l' N []|]. intros l' N [->|Hx] Hy; inversion N as [|? ? N1 N2]; subst; [apply N1, in_or_app; right; exact Hy|apply (IH l' N2 Hx Hy)]. }
  apply in_app_or in IR. destruct IR as [IM|IG].
  - left. split; [exact IM|]. intros i g Eg EO M. apply (DIS a _ _ ND IM). apply in_flat_map. exists (Some g). split; [apply (in_gens _ _ _ Eg)|apply (OWN i g Eg EO M)].
  - right. apply in_flat_map in IG. destruct IG as ([g|] & Hg & IG); [|destruct IG]. destruct (gens_in _ _ Hg) as (i & Eg). pose proof (OK g Hg) as O1.
    assert (NM : ~ In a (p_mine p)) by (intro IM; apply (DIS a _ _ ND IM), in_flat_map; exists (Some g); auto).
    assert (OM : m_owns g = Some true /\ mentions g a).
    { unfold gen_roots in IG. apply in_app_or in IG. destruct IG as [IG|IG].
      - unfold owned in IG. destruct (m_owns g) as [[|]|]; try destruct IG. split; [reflexivity|]. unfold mentions. apply in_app_or in IG.
        destruct IG as [IG|IG]; [left; destruct (m_disj g)|right; destruct (m_set g)]; cbn [addr] in IG; try destruct IG as [->|[]]; try destruct IG; reflexivity.
      - exfalso. apply K. apply (ok_kind _ _ _ O1). destruct (m_prlp g); cbn [addr] in IG; try destruct IG as [->|[]]; try destruct IG; reflexivity. }
    exists i, g. split; [exact Eg|]. split; [apply OM|]. split; [apply OM|]. split; [exact NM|].
    intros j g' Ej M'. pose proof (OK g' (in_gens _ _ _ Ej)) as O2. destruct (m_owns g') as [[|]|] eqn:EO; [| |destruct (ok_owns _ _ _ O2 EO)].
    + destruct (Nat.eq_dec j i) as [E|NE]; [exact E|exfalso]. apply nd_r in ND.
      assert (A : In a (gen_roots (Some g))) by (apply (OWN i g Eg); apply OM). assert (B : In a (gen_roots (Some g'))) by (apply (OWN j g' Ej EO M')).
      unfold the_gen in Eg, Ej. destruct (nth_error (p_gens p) i) as [[x|]|] eqn:N1; try discriminate. destruct (nth_error (p_gens p) j) as [[y|]|] eqn:N2; try discriminate.
      injection Eg as ->. injection Ej as ->. clear - ND N1 N2 NE A B DIS. revert i j N1 N2 NE. induction (p_gens p) as [|z l IH]; intros [|i] [|j] N1 N2 NE; cbn [nth_error flat_map] in *; try discriminate.
      * congruence.
      * injection N1 as ->. apply (DIS a _ _ ND A). apply in_flat_map. exists (Some g'). split; [apply (nth_error_In _ _ N2)|exact B].
      * injection N2 as ->. apply (DIS a _ _ ND B). apply in_flat_map. exists (Some g). split; [apply (nth_error_In _ _ N1)|exact A].
      * apply (IH (nd_r _ _ ND) i j N1 N2). congruence.
    + exfalso. apply NM. apply (ok_user _ _ _ O2 EO). apply in_or_app. destruct M' as [-> | ->]; [left|right]; left; reflexivity.
Qed.
Print Assumptions one_owner.

(** A disciplined program: own a user disjunction, run, reset, run without one, destroy; nothing left live
    but a PRLP. *)
Fixpoint exec_all (p : prog) (cs : list cmd) : option prog :=
  match cs with [] => Some p | c :: r => match exec_cmd p c with Some p' => exec_all p' r | None => None end end.
Fixpoint all_disciplined (p : prog) (cs : list cmd) : Prop :=
  match cs with [] => True | c :: r => disciplined p c /\ match exec_cmd p c with Some p' => all_disciplined p' r | None => False end end.
Lemma exec_history : forall cs p p', history p -> all_disciplined p cs -> exec_all p cs = Some p' -> history p'.
Proof.
  induction cs as [|c r IH]; intros p p' H D E; cbn [exec_all all_disciplined] in *; [congruence|]. destruct D as [D1 D2]. destruct (exec_cmd p c) as [q|] eqn:Q; [|discriminate].
  apply (IH q p'); [apply (h_step p c q); assumption|exact D2|exact E].
Qed.
Definition a_program : list cmd :=
  [UNew KDisj; GNew; GSetDisj 0 (Ptr 0) 1; GGenerate 0 (Runs MDisj 1); GSetDisj 0 (Ptr 0) (-1); GSetDisj 0 Null 0; GNew; GGenerate 1 (Runs MSet 2); GDestroy 1; UDelete 0; GDestroy 0].
Example a_program_meets : all_disciplined prog0 a_program /\ exists p, exec_all prog0 a_program = Some p /\ p_mine p = [] /\ map c_live (p_heap p) = [false; false; false; false; false; true; false].
Proof.
  split; [|eexists; split; [vm_compute; reflexivity|split; reflexivity]]. unfold a_program. cbn [all_disciplined].
  repeat (match goal with |- _ /\ _ => split | |- True => exact Logic.I | |- match exec_cmd ?p ?c with _ => _ end => let r := eval vm_compute in (exec_cmd p c) in change (exec_cmd p c) with r; cbv iota; cbn [all_disciplined] end);
    cbn [disciplined]; try exact Logic.I; try (left; reflexivity).
  - eexists. split; [vm_compute; reflexivity|]. split; [reflexivity|]. left. exists 0%nat. split; [reflexivity|left; reflexivity].
  - eexists. vm_compute. reflexivity.
  - eexists. split; [vm_compute; reflexivity|]. split; [reflexivity|]. left. exists 0%nat. split; [reflexivity|left; reflexivity].
  - eexists. split; [vm_compute; reflexivity|]. split; [reflexivity|]. right. split; reflexivity.
  - eexists. vm_compute. reflexivity.
  - eexists. vm_compute. reflexivity.
  - split; [left; reflexivity|]. intros [|[|i]] g E; vm_compute in E; try discriminate; [injection E as <-; intros [Q|Q]; discriminate|destruct i; discriminate].
  - eexists. vm_compute. reflexivity.
Qed.

(** Refuted: copying (and so clone(), which Cbc calls) — the copy constructor compares members it has not set,
    whatever the source. *)
Theorem copy_refuted : forall p i, exec_cmd p (GCopy i) = None.
Proof.
  intros p i. cbn [exec_cmd]. destruct (the_gen p i) as [g|]; [|reflexivity]. unfold init_from, setDisjunction. cbn [m_disj m_owns raw_gen].
  destruct (m_owns g) as [[|]|]; reflexivity.
Qed.
Print Assumptions copy_refuted.
(** Refuted: assignment from a generator that owns its disjunction (or set): NULL is cloned. *)
Theorem assign_from_owner_refuted : forall p i j s, history p -> i <> j -> the_gen p j = Some s -> m_owns s = Some true -> exec_cmd p (GAssign i j) = None.
Proof.
  intros p i j s H N Es EO. cbn [exec_cmd]. destruct (Nat.eqb_spec i j); [contradiction|]. rewrite Es. destruct (the_gen p i) as [g|]; [|reflexivity].
  destruct (history_inv p H) as [_ OK]. specialize (OK s (in_gens _ _ _ Es)).
  unfold with_gen, init_from. rewrite EO. unfold setDisjunction, own_flag. cbn [Z.ltb Z.compare Z.eqb negb].
  destruct (del_if (p_heap p) (m_disj g) (m_owns g)) as [h1|]; [|reflexivity]. destruct (ok_one _ _ _ OK) as [E|E]; [rewrite E; reflexivity|].
  destruct (clone KDisj h1 (m_disj s)) as [[h2 q]|]; [|reflexivity]. unfold setDisjunctionSet, own_flag. cbn [Z.ltb Z.compare Z.eqb negb m_set m_owns].
  destruct (del_if h2 (m_set g) (Some true)) as [h3|]; [|reflexivity]. rewrite E. reflexivity.
Qed.
Print Assumptions assign_from_owner_refuted.
(** Refuted: one flag for both pointers — the user's disjunction is deleted by the generator when a set is
    given with ownership after it; a set the generator created is lost when a disjunction is given without. *)
Theorem shared_flag_refuted :
  (exists p, exec_all prog0 [UNew KDisj; UNew KSet; GNew; GSetDisj 0 (Ptr 0) 0; GSetSet 0 (Ptr 1) 1; GDestroy 0] = Some p /\
     In 0%nat (p_mine p) /\ live (p_heap p) 0 = false /\ exec_cmd p (UDelete 0) = None) /\
  (exists p, exec_all prog0 [UNew KDisj; GNew; GGenerate 0 (Runs MSet 1); GSetDisj 0 (Ptr 0) 0; GDestroy 0; UDelete 0] = Some p /\
     p_mine p = [] /\ p_gens p = [None] /\ live (p_heap p) 1 = true /\ kind_of (p_heap p) 1 = Some KSet).
Proof.
  split; eexists; (split; [vm_compute; reflexivity|]); cbn [p_mine p_gens p_heap]; repeat split; try reflexivity. right. left. reflexivity.
Qed.
Print Assumptions shared_flag_refuted.
(** Refuted: assignment shares the PRLP, so it is freed twice; and a PRLP is lost whenever a second is created. *)
Theorem prlp_refuted :
  exec_all prog0 [UNew KDisj; GNew; GSetDisj 0 (Ptr 0) 0; GGenerate 0 (Runs MDisj 1); GNew; GAssign 1 0; GDestroy 0] <> None /\
  exec_all prog0 [UNew KDisj; GNew; GSetDisj 0 (Ptr 0) 0; GGenerate 0 (Runs MDisj 1); GNew; GAssign 1 0; GDestroy 0; GDestroy 1] = None /\
  (exists p, exec_all prog0 [GNew; GGenerate 0 (Runs MSet 2); GDestroy 0] = Some p /\ live (p_heap p) 1 = true /\ kind_of (p_heap p) 1 = Some KPrlp).
Proof.
  split; [discriminate|]. split; [reflexivity|]. eexists. split; [vm_compute; reflexivity|]. split; reflexivity.
Qed.
Print Assumptions prlp_refuted.
(** Refuted: setting the generator's own disjunction again with ownership: it is deleted, then cloned. *)
Theorem set_own_refuted : exists p a, exec_all prog0 [GNew; GGenerate 0 (Runs MDisj 1)] = Some p /\
  (exists g, the_gen p 0 = Some g /\ m_disj g = Ptr a) /\ exec_cmd p (GSetDisj 0 (Ptr a) (-1)) = None.
Proof. eexists; exists 0%nat. split; [vm_compute; reflexivity|]. split; [eexists; split; reflexivity|reflexivity]. Qed.
Print Assumptions set_own_refuted.

(** ** VPCSolverInterface. *)
Definition vsi_cells (v : vsi) : list nat := addr (v_solver v) ++ addr (v_cuts v) ++ addr (v_disj v) ++ addr (v_params v).
(** A constructed object: solver, cuts and parameters exist. *)
Definition vsi_ok (h : heap) (rest : list nat) (v : vsi) : Prop :=
  cells h (vsi_cells v ++ rest) /\ (exists a, v_solver v = Ptr a) /\ (exists a, v_cuts v = Ptr a) /\ (exists a, v_params v = Ptr a) /\ v_disj v <> Undef.
(** Operations and what they need of the objects outside ([rest]). *)
Inductive vop := VParams (p : nat) | VLoad (si : nat) | VGenerate (c : gcall) | VClear | VAssign (s : vsi).
Definition vexec (h : heap) (v : vsi) (o : vop) : option (heap * vsi) :=
  match o with
  | VParams p => vsi_setParams h v (Ptr p) | VLoad si => vsi_load h v (Ptr si) | VGenerate c => vsi_generate h v c
  | VClear => vsi_clear_cuts h v | VAssign s => vsi_init_from h v s
  end.
Definition vneeds (rest : list nat) (o : vop) : Prop :=
  match o with
  | VParams p => In p rest | VLoad si => In si rest | VGenerate _ => True | VClear => True
  | VAssign s => exists a b c d, s = {| v_solver := Ptr a; v_cuts := Ptr b; v_disj := Ptr c; v_params := Ptr d |} /\ incl [a; b; c; d] rest
  end.
Lemma clone_ok k h R a : cells h R -> In a R -> exists h', clone k h (Ptr a) = Some (h', Ptr (length h)) /\ cells h' (length h :: R).
Proof. intros C H. cbn [clone]. rewrite (proj1 (proj2 C) a H). unfold alloc. eexists. split; [reflexivity|]. apply (cells_alloc k h R C). Qed.
Lemma vsi_free_ok h rest v : cells h (vsi_cells v ++ rest) -> v_solver v <> Undef -> v_cuts v <> Undef -> v_disj v <> Undef -> v_params v <> Undef ->
  exists h', vsi_free h v = Some (h', {| v_solver := Null; v_cuts := Null; v_disj := Null; v_params := Null |}) /\ cells h' rest.
Proof.
  intros C U1 U2 U3 U4. unfold vsi_free, vsi_cells in *. rewrite <- !app_assoc in C.
  destruct (del_ok _ _ _ U1 C) as (h1 & -> & C1 & _). destruct (del_ok _ _ _ U2 C1) as (h2 & -> & C2 & _).
  destruct (del_ok _ _ _ U3 C2) as (h3 & -> & C3 & _). destruct (del_ok _ _ _ U4 C3) as (h4 & -> & C4 & _). exists h4. auto.
Qed.
Lemma vop_ok h rest v o : vsi_ok h rest v -> vneeds rest o -> exists h' v', vexec h v o = Some (h', v') /\ vsi_ok h' rest v'.
Proof.
  intros (C & (a1 & E1) & (a2 & E2) & (a4 & E4) & U3) N. destruct v as [s c d p]. cbn [v_solver v_cuts v_disj v_params] in *. subst s c p. unfold vsi_cells in C. cbn [v_solver v_cuts v_disj v_params addr app] in C.
  destruct o as [p|si|gc| |s]; cbn [vexec vneeds] in *.
  - unfold vsi_setParams. cbn [v_params v_solver v_cuts v_disj].
    assert (C' : cells h (a4 :: a1 :: a2 :: addr d ++ rest)).
    { apply (cells_perm _ _ _ (Permutation_sym (Permutation_middle [a1; a2] (addr d ++ rest) a4))). cbn [app]. apply (cells_perm _ (a1 :: a2 :: (addr d ++ [a4]) ++ rest)); [|exact C].
      do 2 constructor. rewrite <- app_assoc. symmetry. apply Permutation_middle. }
    destruct (cells_free _ _ _ C') as (h1 & F & C1 & _). cbn [del]. rewrite F.
    destruct (clone_ok KParams h1 _ p C1) as (h2 & -> & C2); [do 2 right; apply in_or_app; right; exact N|]. eexists; eexists. split; [reflexivity|].
    split; [|cbn [v_solver v_cuts v_disj v_params]; repeat split; try (eexists; reflexivity); exact U3].
    unfold vsi_cells. cbn [v_solver v_cuts v_disj v_params addr app].
    apply (cells_perm _ _ _ (Permutation_middle [a1; a2] (addr d ++ rest) (length h1))) in C2. cbn [app] in C2.
    apply (cells_perm _ (a1 :: a2 :: length h1 :: addr d ++ rest)); [|exact C2]. do 2 constructor. rewrite <- app_assoc. apply Permutation_middle.
  - unfold vsi_load. cbn [v_params v_solver v_cuts v_disj del]. destruct (cells_free _ _ _ C) as (h1 & F & C1 & _). rewrite F.
    destruct (clone_ok KSolver h1 _ si C1) as (h2 & -> & C2); [right; apply in_or_app; right; exact N|]. eexists; eexists. split; [reflexivity|].
    split; [exact C2|cbn [v_solver v_cuts v_disj v_params]; repeat split; try (eexists; reflexivity); exact U3].
  - unfold vsi_generate. cbn [init_new raw_gen m_prlp del]. set (g0 := {| m_disj := Null; m_set := Null; m_prlp := Null; m_owns := Some false |}).
    assert (OK0 : gen_ok h [] g0) by (split; cbn [m_disj m_set m_prlp m_owns g0]; try discriminate; [auto|intros _ x []]).
    destruct (generate_effect h (a1 :: a2 :: (addr d ++ [a4]) ++ rest) [] g0 gc OK0 C ltac:(intros x [])) as (h2 & g2 & -> & C2 & _ & OK2). cbn [v_disj].
    assert (G : exists h5 q, (match m_disj g2 with
             | Ptr a => match del h2 d with Some h3 => match clone KDisj h3 (Ptr a) with Some (h4, p) => Some (h4, p) | None => None end | None => None end
             | Null => Some (h2, d) | Undef => None end) = Some (h5, q) /\ cells h5 (gen_roots (Some g2) ++ a1 :: a2 :: (addr q ++ [a4]) ++ rest) /\ gen_ok h5 [] g2 /\ q <> Undef).
    { destruct (m_disj g2) as [| |a] eqn:ED; [destruct (ok_disj _ _ _ OK2 ED)|exists h2, d; auto|].
      assert (OWN : m_owns g2 = Some true).
      { destruct (m_owns g2) as [[|]|] eqn:EO; [reflexivity| |destruct (ok_owns _ _ _ OK2 EO)]. destruct (ok_user _ _ _ OK2 EO a). rewrite ED. left. reflexivity. }
      assert (C2' : cells h2 (addr d ++ gen_roots (Some g2) ++ a1 :: a2 :: [a4] ++ rest)).
      { apply (cells_perm _ (gen_roots (Some g2) ++ a1 :: a2 :: (addr d ++ [a4]) ++ rest)); [|exact C2]. rewrite Permutation_app_swap_app. apply Permutation_app_head.
        rewrite <- app_assoc. apply (Permutation_trans (l' := [a1; a2] ++ addr d ++ [a4] ++ rest)); [reflexivity|]. apply Permutation_app_swap_app. }
      destruct (del_ok _ _ _ U3 C2') as (h3 & -> & C3 & K3).
      destruct (clone_ok KDisj h3 _ a C3) as (h4 & CL & C4).
      { apply in_or_app. left. unfold gen_roots, owned. rewrite OWN, ED. left. reflexivity. }
      rewrite CL. exists h4, (Ptr (length h3)). split; [reflexivity|]. split; [|split; [|discriminate]].
      - cbn [addr app] in *. apply (cells_perm _ (length h3 :: gen_roots (Some g2) ++ a1 :: a2 :: a4 :: rest)); [|exact C4].
        apply (Permutation_trans (l' := gen_roots (Some g2) ++ length h3 :: a1 :: a2 :: a4 :: rest)); [apply Permutation_middle|]. apply Permutation_app_head.
        apply (Permutation_middle [a1; a2]).
      - cbn [clone] in CL. destruct (live h3 a); [|discriminate]. injection CL as <-. apply (gen_ok_mono h2 _ []); auto. apply (sk_trans _ _ _ K3), (sk_alloc KDisj). }
    destruct G as (h5 & q & -> & C5 & OK5 & UQ). destruct (destroy_ok _ _ _ _ OK5 C5) as (h6 & -> & C6 & _). eexists; eexists. split; [reflexivity|].
    split; [exact C6|cbn [v_solver v_cuts v_disj v_params]; repeat split; try (eexists; reflexivity); exact UQ].
  - unfold vsi_clear_cuts. cbn [v_params v_solver v_cuts v_disj].
    assert (C' : cells h (a2 :: a1 :: (addr d ++ [a4]) ++ rest)) by (apply (cells_perm _ _ _ (perm_swap _ _ _)); exact C).
    destruct (cells_free _ _ _ C') as (h1 & -> & C1 & _). unfold alloc. eexists; eexists. split; [reflexivity|].
    split; [|cbn [v_solver v_cuts v_disj v_params]; repeat split; try (eexists; reflexivity); exact U3].
    unfold vsi_cells. cbn [v_solver v_cuts v_disj v_params addr app]. apply (cells_perm _ _ _ (perm_swap _ _ _)). apply (cells_alloc KCuts _ _ C1).
  - destruct N as (a & b & c & e & -> & IN). unfold vsi_init_from. cbn [v_params v_solver v_cuts v_disj].
    destruct (vsi_free_ok h rest {| v_solver := Ptr a1; v_cuts := Ptr a2; v_disj := d; v_params := Ptr a4 |}) as (h0 & -> & C0); try discriminate; [exact C|exact U3|].
    destruct (clone_ok KSolver h0 _ a C0) as (h1 & -> & C1); [apply IN; left; reflexivity|].
    destruct (clone_ok KCuts h1 _ b C1) as (h2 & -> & C2); [right; apply IN; right; left; reflexivity|].
    destruct (clone_ok KDisj h2 _ c C2) as (h3 & -> & C3); [do 2 right; apply IN; do 2 right; left; reflexivity|].
    unfold vsi_setParams. cbn [v_params v_solver v_cuts v_disj del].
    destruct (clone_ok KParams h3 _ e C3) as (h4 & -> & C4); [do 3 right; apply IN; do 3 right; left; reflexivity|]. eexists; eexists. split; [reflexivity|].
    split; [|cbn [v_solver v_cuts v_disj v_params]; repeat split; try (eexists; reflexivity); discriminate].
    unfold vsi_cells. cbn [v_solver v_cuts v_disj v_params addr app]. apply (cells_perm _ (length h3 :: length h2 :: length h1 :: length h0 :: rest)); [|exact C4].
    change (length h3 :: length h2 :: length h1 :: length h0 :: rest) with ([length h3; length h2; length h1; length h0] ++ rest).
    change (length h0 :: length h1 :: length h2 :: length h3 :: rest) with ([length h0; length h1; length h2; length h3] ++ rest). apply Permutation_app_tail.
    apply (Permutation_rev [length h3; length h2; length h1; length h0]).
Qed.
Fixpoint vrun (h : heap) (v : vsi) (os : list vop) : option (heap * vsi) :=
  match os with [] => Some (h, v) | o :: r => match vexec h v o with Some (h', v') => vrun h' v' r | None => None end end.
(** The life of a VPCSolverInterface object: constructed, any number of setParams, load, generateCuts, clearing of
    cuts and assignments from objects that have a disjunction, then destroyed: no undefined behaviour, and
    afterwards exactly the cells of the others remain (and PRLPs). *)
Theorem interface_life : forall h rest os, cells h rest -> Forall (vneeds rest) os ->
  let '(h1, v1) := vsi_new h in
  exists h2 v2 h3 v3, vrun h1 v1 os = Some (h2, v2) /\ vsi_free h2 v2 = Some (h3, v3) /\ cells h3 rest.
Proof.
  intros h rest os C F. unfold vsi_new, alloc.
  set (h1 := h ++ [_]). set (h2 := h1 ++ [_]). set (h3 := h2 ++ [_]).
  assert (OK : vsi_ok h3 rest {| v_solver := Ptr (length h); v_cuts := Ptr (length h1); v_disj := Null; v_params := Ptr (length h2) |}).
  { split; [|cbn [v_solver v_cuts v_disj v_params]; repeat split; try (eexists; reflexivity); discriminate].
    unfold vsi_cells. cbn [v_solver v_cuts v_disj v_params addr app].
    apply (cells_perm _ ([length h2; length h1; length h] ++ rest)); [apply (Permutation_app_tail rest (Permutation_rev [length h2; length h1; length h]))|].
    apply (cells_alloc KParams), (cells_alloc KCuts), (cells_alloc KSolver), C. }
  clearbody h3. revert h3 OK. generalize {| v_solver := Ptr (length h); v_cuts := Ptr (length h1); v_disj := Null; v_params := Ptr (length h2) |} as v. clear - F.
  induction F as [|o os N F IH]; intros v h OK; cbn [vrun].
  - destruct OK as (C & (a1 & E1) & (a2 & E2) & (a4 & E4) & U3). destruct (vsi_free_ok h rest v C) as (h' & FR & C'); try congruence. exists h, v, h'. eexists. split; [reflexivity|]. split; [exact FR|exact C'].
  - destruct (vop_ok h rest v o OK N) as (h' & v' & -> & OK'). apply (IH v' h' OK').
Qed.
Print Assumptions interface_life.

(** Refuted: the copy constructor, whatever the source, frees members it has not set; setDisjunction, whatever
    the argument, frees what it then clones (or clones NULL); assignment from an object without a
    disjunction clones NULL; setParams with the object's own parameters frees what it copies. *)
Theorem interface_refuted :
  (forall h s, vsi_init_from h raw_vsi s = None) /\
  (forall h v d, vsi_setDisjunction h v d = None) /\
  (forall h v s, v_disj s = Null -> vsi_init_from h v s = None) /\
  (forall h v, vsi_setParams h v (v_params v) = None).
Proof.
  assert (FK : forall h a, live (kill h a) a = false) by (intros; rewrite live_kill, Nat.eqb_refl; reflexivity).
  split; [reflexivity|]. split; [|split].
  - intros h v [| |a]; try reflexivity. unfold vsi_setDisjunction. cbn [del]. unfold free. destruct (live h a); [|reflexivity]. cbn [clone]. rewrite FK. reflexivity.
  - intros h v s E. unfold vsi_init_from. destruct (vsi_free h v) as [[h0 w]|]; [|reflexivity]. destruct (clone KSolver h0 (v_solver s)) as [[h1 p1]|]; [|reflexivity].
    destruct (clone KCuts h1 (v_cuts s)) as [[h2 p2]|]; [|reflexivity]. rewrite E. reflexivity.
  - intros h v. unfold vsi_setParams. destruct (v_params v) as [| |a]; try reflexivity. cbn [del]. unfold free. destruct (live h a); [|reflexivity]. cbn [clone]. rewrite FK. reflexivity.
Qed.
Print Assumptions interface_refuted.
