(** Proofs about ownership. *)
From Verif Require Import Prelude Model.Ownership.
From Coq Require Import Permutation.

Definition kind_of (h : heap) (a : nat) : option kind := option_map c_kind (nth_error h a).
Lemma kill_nth : forall h a b, nth_error (kill h a) b = if Nat.eqb a b then option_map (fun c => {| c_kind := c_kind c; c_live := false |}) (nth_error h b) else nth_error h b.
Proof.
  induction h as [|c h IH]; intros [|a] [|b]; cbn [kill nth_error Nat.eqb option_map]; try reflexivity; [destruct (Nat.eqb a b); reflexivity|]. apply IH.
Qed.
Lemma live_kill h a b : live (kill h a) b = if Nat.eqb a b then false else live h b.
Proof. unfold live. rewrite kill_nth. destruct (Nat.eqb a b); [|reflexivity]. destruct (nth_error h b); reflexivity. Qed.
Lemma kind_kill h a b : kind_of (kill h a) b = kind_of h b.
Proof. unfold kind_of. rewrite kill_nth. destruct (Nat.eqb a b); [|reflexivity]. destruct (nth_error h b); reflexivity. Qed.
Lemma live_lt h a : live h a = true -> (a < length h)%nat.
Proof. unfold live. intro H. apply nth_error_Some. destruct (nth_error h a); [discriminate|discriminate H]. Qed.
Lemma live_alloc k h b : live (fst (alloc k h)) b = if Nat.eqb b (length h) then true else live h b.
Proof.
  unfold live, alloc. cbn [fst]. destruct (Nat.eqb_spec b (length h)) as [->|N].
  - rewrite nth_error_app2, Nat.sub_diag by lia. reflexivity.
  - destruct (Nat.lt_ge_cases b (length h)) as [L|L]; [rewrite nth_error_app1 by exact L; reflexivity|].
    rewrite (proj2 (nth_error_None h b) L). destruct (nth_error (h ++ _) b) eqn:E; [|reflexivity].
    assert (nth_error (h ++ [{| c_kind := k; c_live := true |}]) b <> None) as K by congruence. apply nth_error_Some in K. rewrite app_length in K. cbn [length] in K. lia.
Qed.
Lemma kind_alloc k h b : (b < length h)%nat -> kind_of (fst (alloc k h)) b = kind_of h b.
Proof. intro L. unfold kind_of, alloc. cbn [fst]. rewrite nth_error_app1 by exact L. reflexivity. Qed.
Lemma kind_alloc_new k h : kind_of (fst (alloc k h)) (length h) = Some k.
Proof. unfold kind_of, alloc. cbn [fst]. rewrite nth_error_app2, Nat.sub_diag by lia. reflexivity. Qed.
Lemma kind_lt h a k : kind_of h a = Some k -> (a < length h)%nat.
Proof. unfold kind_of. intro H. apply nth_error_Some. destruct (nth_error h a); discriminate. Qed.

(** [R] lists the cells somebody will free: once each, all live; other live cells are PRLPs. *)
Definition cells (h : heap) (R : list nat) : Prop :=
  NoDup R /\ (forall a, In a R -> live h a = true) /\ (forall a, live h a = true -> kind_of h a <> Some KPrlp -> In a R).
Lemma cells_perm h R R' : Permutation R R' -> cells h R -> cells h R'.
Proof.
  intros P (N & L & C). split; [apply (Permutation_NoDup P N)|]. split; [intros a Ha; apply L, (Permutation_in a (Permutation_sym P)), Ha|].
  intros a Ha K. apply (Permutation_in a P), C; assumption.
Qed.
Definition same_kinds (h h' : heap) : Prop := (length h <= length h')%nat /\ forall a, (a < length h)%nat -> kind_of h' a = kind_of h a.
Lemma sk_refl h : same_kinds h h. Proof. split; auto. Qed.
Lemma sk_trans a b c : same_kinds a b -> same_kinds b c -> same_kinds a c.
Proof. intros [L1 K1] [L2 K2]. split; [lia|]. intros x Hx. rewrite K2 by lia. apply K1, Hx. Qed.
Lemma kill_length : forall h a, length (kill h a) = length h.
Proof. induction h as [|c h IH]; intros [|a]; cbn [kill length]; try reflexivity. rewrite IH. reflexivity. Qed.
Lemma sk_kill h a : same_kinds h (kill h a).
Proof. split; [rewrite kill_length; lia|]. intros; apply kind_kill. Qed.
Lemma sk_alloc k h : same_kinds h (fst (alloc k h)).
Proof. split; [unfold alloc; cbn [fst]; rewrite app_length; lia|]. intros; apply kind_alloc; assumption. Qed.
Lemma cells_free h a R : cells h (a :: R) -> exists h', free h a = Some h' /\ cells h' R /\ same_kinds h h'.
Proof.
  intros (N & L & C). inversion N as [|? ? NI ND]; subst. unfold free. rewrite (L a (or_introl eq_refl)). eexists. split; [reflexivity|]. split; [|apply sk_kill].
  split; [exact ND|]. split.
  - intros b Hb. rewrite live_kill. destruct (Nat.eqb_spec a b) as [->|]; [contradiction|]. apply L. right. exact Hb.
  - intros b Hb K. rewrite live_kill in Hb. rewrite kind_kill in K. destruct (Nat.eqb_spec a b) as [->|Q]; [discriminate|]. destruct (C b Hb K) as [E|H]; [contradiction|exact H].
Qed.
Lemma cells_alloc k h R : cells h R -> cells (fst (alloc k h)) (length h :: R).
Proof.
  intros (N & L & C). split; [constructor; [|exact N]; intro H; apply L, live_lt in H; lia|]. split.
  - intros a [<-|Ha]; rewrite live_alloc; [rewrite Nat.eqb_refl; reflexivity|]. destruct (Nat.eqb a (length h)); [reflexivity|apply L, Ha].
  - intros a Ha K. rewrite live_alloc in Ha. destruct (Nat.eqb_spec a (length h)) as [E|Q]; [left; symmetry; exact E|]. right. apply C; [exact Ha|].
    rewrite <- (kind_alloc k) by (apply live_lt, Ha). exact K.
Qed.
Lemma cells_leak h a R : cells h (a :: R) -> kind_of h a = Some KPrlp -> cells h R.
Proof.
  intros (N & L & C) K. inversion N as [|? ? NI ND]; subst. split; [exact ND|]. split; [intros b Hb; apply L; right; exact Hb|].
  intros b Hb Kb. destruct (C b Hb Kb) as [E|H]; [subst b; contradiction|exact H].
Qed.

Definition addr (p : ptr) : list nat := match p with Ptr a => [a] | _ => [] end.
Definition owned (g : gen) : list nat := match m_owns g with Some true => addr (m_disj g) ++ addr (m_set g) | _ => [] end.
Definition gen_roots (x : option gen) : list nat := match x with Some g => owned g ++ addr (m_prlp g) | None => [] end.
Definition roots (p : prog) : list nat := p_mine p ++ flat_map gen_roots (p_gens p).
(** A generator in a sound state. *)
Record gen_ok (h : heap) (mine : list nat) (g : gen) : Prop := {
  ok_disj : m_disj g <> Undef; ok_set : m_set g <> Undef; ok_prlp : m_prlp g <> Undef; ok_owns : m_owns g <> None;
  ok_one : m_disj g = Null \/ m_set g = Null;
  ok_user : m_owns g = Some false -> forall a, In a (addr (m_disj g) ++ addr (m_set g)) -> In a mine;
  ok_kind : forall a, m_prlp g = Ptr a -> kind_of h a = Some KPrlp
}.
Definition inv (p : prog) : Prop :=
  cells (p_heap p) (roots p) /\ forall g, In (Some g) (p_gens p) -> gen_ok (p_heap p) (p_mine p) g.
Lemma gen_ok_mono h h' mine mine' g : same_kinds h h' -> (forall a, In a (addr (m_disj g) ++ addr (m_set g)) -> In a mine -> In a mine') -> gen_ok h mine g -> gen_ok h' mine' g.
Proof.
  intros [_ K] M [H1 H2 H3 H4 H5 H6 H7]. split; try assumption; [intros O a Ha; apply M; auto|]. intros a E. specialize (H7 a E). rewrite K; [exact H7|]. apply (kind_lt _ _ _ H7).
Qed.
Lemma put_mid {A} (l1 : list A) x l2 y : put (l1 ++ x :: l2) (length l1) y = l1 ++ y :: l2.
Proof. induction l1 as [|z l1 IH]; cbn [app length put]; [reflexivity|]. rewrite IH. reflexivity. Qed.
Lemma the_gen_split p i g : the_gen p i = Some g -> exists l1 l2, p_gens p = l1 ++ Some g :: l2 /\ i = length l1.
Proof.
  unfold the_gen. destruct (nth_error (p_gens p) i) as [[g'|]|] eqn:E; try discriminate. intro H. injection H as ->.
  apply nth_error_split in E. destruct E as (l1 & l2 & E1 & E2). exists l1, l2. auto.
Qed.

(** What one operation on a generator must do: with [rest] the other cells to be freed (including the user's). *)
Definition effect (h : heap) (rest mine : list nat) (r : option (heap * gen)) : Prop :=
  exists h' g', r = Some (h', g') /\ cells h' (gen_roots (Some g') ++ rest) /\ same_kinds h h' /\ gen_ok h' mine g'.
Lemma del_if_ok h p owns rest : p <> Undef -> owns <> None -> cells h ((match owns with Some true => addr p | _ => [] end) ++ rest) ->
  exists h', del_if h p owns = Some h' /\ cells h' rest /\ same_kinds h h'.
Proof.
  intros HP HO C. destruct p as [| |a]; [contradiction| |]; destruct owns as [[|]|]; try contradiction; cbn [addr app del_if] in *;
    try (exists h; split; [reflexivity|]; split; [exact C|apply sk_refl]). apply (cells_free h a rest C).
Qed.
Lemma del_ok h p rest : p <> Undef -> cells h (addr p ++ rest) -> exists h', del h p = Some h' /\ cells h' rest /\ same_kinds h h'.
Proof.
  intros HP C. destruct p as [| |a]; [contradiction| |]; cbn [addr app del] in *; [exists h; split; [reflexivity|]; split; [exact C|apply sk_refl]|]. apply (cells_free h a rest C).
Qed.
Definition src_ok (g : gen) (mine : list nat) (src : ptr) (o : Z) : Prop := (exists a, src = Ptr a /\ In a mine) \/ (src = Null /\ own_flag g o = Some false).
Lemma set_disj_effect h rest mine g src o : gen_ok h mine g -> cells h (gen_roots (Some g) ++ rest) -> incl mine rest -> m_set g = Null -> src_ok g mine src o ->
  effect h rest mine (setDisjunction h g src o).
Proof.
  intros OK C MI SN SO. unfold setDisjunction.
  destruct (own_flag g o) as [ow|] eqn:EO; [|unfold own_flag in EO; destruct (o <? 0)%Z; [destruct (ok_owns _ _ _ OK EO)|discriminate]].
  unfold gen_roots, owned in C. rewrite SN in C. cbn [addr] in C. rewrite app_nil_r in C.
  assert (C' : cells h ((match m_owns g with Some true => addr (m_disj g) | _ => [] end) ++ addr (m_prlp g) ++ rest)) by (rewrite app_assoc; exact C).
  destruct (del_if_ok h (m_disj g) (m_owns g) _ (ok_disj _ _ _ OK) (ok_owns _ _ _ OK) C') as (h1 & -> & C1 & K1).
  destruct ow.
  - destruct SO as [(a & -> & Ha)|[_ F]]; [|congruence]. cbn [clone].
    assert (La : live h1 a = true) by (apply C1, in_or_app; right; apply MI, Ha). rewrite La. unfold alloc. eexists; eexists. split; [reflexivity|].
    split; [unfold gen_roots, owned; cbn [m_owns m_disj m_set m_prlp addr app]; rewrite SN; cbn [addr app]; apply (cells_alloc KDisj _ _ C1)|].
    split; [apply (sk_trans _ _ _ K1), (sk_alloc KDisj)|]. destruct OK as [H1 H2 H3 H4 H5 H6 H7]. split; cbn [m_owns m_disj m_set m_prlp]; try assumption; try discriminate; [right; exact SN|].
    intros b E. destruct (sk_trans _ _ _ K1 (sk_alloc KDisj h1)) as [_ K]. specialize (H7 b E). unfold alloc in K. cbn [fst] in K. rewrite K; [exact H7|apply (kind_lt _ _ _ H7)].
  - eexists; eexists. split; [reflexivity|]. split; [unfold gen_roots, owned; cbn [m_owns m_disj m_set m_prlp app]; exact C1|]. split; [exact K1|].
    destruct OK as [H1 H2 H3 H4 H5 H6 H7]. split; cbn [m_owns m_disj m_set m_prlp]; try assumption; try discriminate.
    + destruct SO as [(a & -> & _)|[-> _]]; discriminate.
    + right; exact SN.
    + intros _ b Hb. rewrite SN in Hb. cbn [addr] in Hb. rewrite app_nil_r in Hb. destruct SO as [(a & -> & Ha)|[-> _]]; [destruct Hb as [<-|[]]; exact Ha|destruct Hb].
    + intros b E. specialize (H7 b E). destruct K1 as [_ K]. rewrite K; [exact H7|apply (kind_lt _ _ _ H7)].
Qed.
Lemma set_set_effect h rest mine g src o : gen_ok h mine g -> cells h (gen_roots (Some g) ++ rest) -> incl mine rest -> m_disj g = Null -> src_ok g mine src o ->
  effect h rest mine (setDisjunctionSet h g src o).
Proof.
  intros OK C MI SN SO. unfold setDisjunctionSet.
  destruct (own_flag g o) as [ow|] eqn:EO; [|unfold own_flag in EO; destruct (o <? 0)%Z; [destruct (ok_owns _ _ _ OK EO)|discriminate]].
  unfold gen_roots, owned in C. rewrite SN in C. cbn [addr app] in C.
  assert (C' : cells h ((match m_owns g with Some true => addr (m_set g) | _ => [] end) ++ addr (m_prlp g) ++ rest)) by (rewrite app_assoc; exact C).
  destruct (del_if_ok h (m_set g) (m_owns g) _ (ok_set _ _ _ OK) (ok_owns _ _ _ OK) C') as (h1 & -> & C1 & K1).
  destruct ow.
  - destruct SO as [(a & -> & Ha)|[_ F]]; [|congruence]. cbn [clone].
    assert (La : live h1 a = true) by (apply C1, in_or_app; right; apply MI, Ha). rewrite La. unfold alloc. eexists; eexists. split; [reflexivity|].
    split; [unfold gen_roots, owned; cbn [m_owns m_disj m_set m_prlp addr app]; rewrite SN; cbn [addr app]; apply (cells_alloc KSet _ _ C1)|].
    split; [apply (sk_trans _ _ _ K1), (sk_alloc KSet)|]. destruct OK as [H1 H2 H3 H4 H5 H6 H7]. split; cbn [m_owns m_disj m_set m_prlp]; try assumption; try discriminate; [left; exact SN|].
    intros b E. destruct (sk_trans _ _ _ K1 (sk_alloc KSet h1)) as [_ K]. specialize (H7 b E). unfold alloc in K. cbn [fst] in K. rewrite K; [exact H7|apply (kind_lt _ _ _ H7)].
  - eexists; eexists. split; [reflexivity|]. split; [unfold gen_roots, owned; cbn [m_owns m_disj m_set m_prlp app]; exact C1|]. split; [exact K1|].
    destruct OK as [H1 H2 H3 H4 H5 H6 H7]. split; cbn [m_owns m_disj m_set m_prlp]; try assumption; try discriminate.
    + destruct SO as [(a & -> & _)|[-> _]]; discriminate.
    + left; exact SN.
    + intros _ b Hb. rewrite SN in Hb. cbn [addr app] in Hb. destruct SO as [(a & -> & Ha)|[-> _]]; [destruct Hb as [<-|[]]; exact Ha|destruct Hb].
    + intros b E. specialize (H7 b E). destruct K1 as [_ K]. rewrite K; [exact H7|apply (kind_lt _ _ _ H7)].
Qed.
Lemma new_prlps_ok : forall n h p rest, p <> Undef -> (forall a, p = Ptr a -> kind_of h a = Some KPrlp) -> cells h (addr p ++ rest) ->
  exists h' p', new_prlps h p n = (h', p') /\ cells h' (addr p' ++ rest) /\ same_kinds h h' /\ p' <> Undef /\ (forall a, p' = Ptr a -> kind_of h' a = Some KPrlp).
Proof.
  induction n as [|n IH]; intros h p rest HP HK C; cbn [new_prlps]; [exists h, p; split; [reflexivity|]; split; [exact C|]; split; [apply sk_refl|]; auto|].
  assert (C0 : cells h rest).
  { destruct p as [| |a]; cbn [addr app] in C; [exact C|exact C|apply (cells_leak _ _ _ C), HK; reflexivity]. }
  destruct (alloc KPrlp h) as [h1 p1] eqn:EA. assert (EA1 : h1 = fst (alloc KPrlp h)) by (rewrite EA; reflexivity). assert (p1 = Ptr (length h)) as -> by (unfold alloc in EA; congruence).
  destruct (IH h1 (Ptr (length h)) rest) as (h2 & p2 & E & C2 & K2 & U2 & P2).
  - discriminate.
  - intros a H. injection H as <-. rewrite EA1. apply kind_alloc_new.
  - cbn [addr app]. rewrite EA1. apply cells_alloc, C0.
  - exists h2, p2. split; [exact E|]. split; [exact C2|]. split; [|auto]. apply (sk_trans _ h1); [rewrite EA1; apply sk_alloc|exact K2].
Qed.
Lemma generate_effect h rest mine g c : gen_ok h mine g -> cells h (gen_roots (Some g) ++ rest) -> incl mine rest -> effect h rest mine (generate h g c).
Proof.
  intros OK C MI. unfold generate. destruct c as [|m n]; [exists h, g; split; [reflexivity|]; split; [exact C|]; split; [apply sk_refl|exact OK]|].
  assert (G : exists h1 g1, (match m_disj g, m_set g with
             | Undef, _ => None
             | Null, Undef => None
             | Null, Null =>
                 match m with
                 | MDisj => let '(h1, p) := alloc KDisj h in Some (h1, {| m_disj := p; m_set := Null; m_prlp := m_prlp g; m_owns := Some true |})
                 | MSet => let '(h1, p) := alloc KSet h in Some (h1, {| m_disj := Null; m_set := p; m_prlp := m_prlp g; m_owns := Some true |})
                 | MNone => Some (h, {| m_disj := Null; m_set := Null; m_prlp := m_prlp g; m_owns := Some true |})
                 end
             | _, _ => if used h (m_disj g) && used h (m_set g) then Some (h, g) else None
             end) = Some (h1, g1) /\ effect h rest mine (Some (h1, g1))).
  { assert (UD : used h (m_disj g) = true /\ used h (m_set g) = true).
    { assert (U : forall a, In a (addr (m_disj g) ++ addr (m_set g)) -> live h a = true).
      { intros a Ha. apply C. destruct (m_owns g) as [[|]|] eqn:EO; [| |destruct (ok_owns _ _ _ OK EO)].
        - apply in_or_app. left. unfold gen_roots, owned. rewrite EO. apply in_or_app. left. exact Ha.
        - apply in_or_app. right. apply MI, (ok_user _ _ _ OK EO), Ha. }
      pose proof (ok_disj _ _ _ OK). pose proof (ok_set _ _ _ OK).
      split; [destruct (m_disj g); cbn [used addr] in *; [contradiction|reflexivity|apply U; left; reflexivity]|destruct (m_set g); cbn [used addr] in *; [contradiction|reflexivity|apply U, in_or_app; right; left; reflexivity]]. }
    destruct UD as [U1 U2]. pose proof (ok_disj _ _ _ OK) as D1. pose proof (ok_set _ _ _ OK) as D2.
    destruct (m_disj g) as [| |a] eqn:ED; [contradiction| |].
    - destruct (m_set g) as [| |b] eqn:ES; [contradiction| |].
      + assert (C0 : cells h (addr (m_prlp g) ++ rest)) by (unfold gen_roots, owned in C; rewrite ED, ES in C; destruct (m_owns g) as [[|]|]; exact C).
        destruct m; unfold alloc; (eexists; eexists; split; [reflexivity|]; eexists; eexists; split; [reflexivity|]).
        * split; [apply (cells_alloc KDisj), C0|]. split; [apply (sk_alloc KDisj)|]. split; cbn [m_disj m_set m_prlp m_owns]; try discriminate; [apply OK|auto|].
          intros x E. pose proof (ok_kind _ _ _ OK x E) as K. rewrite <- K. apply (kind_alloc KDisj), (kind_lt _ _ _ K).
        * split; [apply (cells_alloc KSet), C0|]. split; [apply (sk_alloc KSet)|]. split; cbn [m_disj m_set m_prlp m_owns]; try discriminate; [apply OK|auto|].
          intros x E. pose proof (ok_kind _ _ _ OK x E) as K. rewrite <- K. apply (kind_alloc KSet), (kind_lt _ _ _ K).
        * split; [exact C0|]. split; [apply sk_refl|]. split; cbn [m_disj m_set m_prlp m_owns]; try discriminate; [apply OK|auto|apply OK].
      + rewrite U1, U2. exists h, g. split; [reflexivity|]. exists h, g. split; [reflexivity|]. split; [exact C|]. split; [apply sk_refl|exact OK].
    - rewrite U1, U2. exists h, g. split; [destruct (m_set g); reflexivity|]. exists h, g. split; [reflexivity|]. split; [exact C|]. split; [apply sk_refl|exact OK]. }
  destruct G as (h1 & g1 & -> & (h1' & g1' & E & C1 & K1 & OK1)). injection E as <- <-.
  assert (C1' : cells h1 (addr (m_prlp g1) ++ owned g1 ++ rest)).
  { apply (cells_perm _ _ _ (Permutation_app_swap_app _ _ _)). unfold gen_roots in C1. rewrite app_assoc. exact C1. }
  destruct (new_prlps_ok n h1 (m_prlp g1) _ (ok_prlp _ _ _ OK1) (ok_kind _ _ _ OK1) C1') as (h2 & p2 & -> & C2 & K2 & U2 & P2).
  eexists; eexists. split; [reflexivity|]. split; [|split; [apply (sk_trans _ _ _ K1 K2)|]].
  - unfold gen_roots. cbn [m_prlp]. rewrite <- app_assoc. apply (cells_perm _ _ _ (Permutation_app_swap_app _ _ _)). exact C2.
  - destruct OK1 as [H1 H2 H3 H4 H5 H6 H7]. split; cbn [m_disj m_set m_prlp m_owns]; assumption.
Qed.
Lemma destroy_ok h rest mine g : gen_ok h mine g -> cells h (gen_roots (Some g) ++ rest) -> exists h', destroy h g = Some h' /\ cells h' rest /\ same_kinds h h'.
Proof.
  intros OK C. unfold destroy. unfold gen_roots, owned in C. rewrite <- app_assoc in C.
  assert (C1 : cells h ((match m_owns g with Some true => addr (m_disj g) | _ => [] end) ++ (match m_owns g with Some true => addr (m_set g) | _ => [] end) ++ addr (m_prlp g) ++ rest)).
  { destruct (m_owns g) as [[|]|]; [rewrite <- app_assoc in C; exact C|exact C|exact C]. }
  destruct (del_if_ok _ _ _ _ (ok_disj _ _ _ OK) (ok_owns _ _ _ OK) C1) as (h1 & -> & C2 & K1).
  destruct (del_if_ok _ _ _ _ (ok_set _ _ _ OK) (ok_owns _ _ _ OK) C2) as (h2 & -> & C3 & K2).
  destruct (del_ok _ _ _ (ok_prlp _ _ _ OK) C3) as (h3 & -> & C4 & K3).
  exists h3. split; [reflexivity|]. split; [exact C4|]. apply (sk_trans _ _ _ K1), (sk_trans _ _ _ K2 K3).
Qed.
Lemma assign_effect h rest mine g s : gen_ok h mine g -> cells h (gen_roots (Some g) ++ rest) -> gen_ok h mine s ->
  m_owns s = Some false -> m_prlp s = Null -> (m_set g = Null \/ m_owns g = Some false) -> effect h rest mine (init_from h g s).
Proof.
  intros OK C OKs ES EP EG. unfold init_from. rewrite ES. unfold setDisjunction, own_flag. cbn [Z.ltb Z.compare Z.eqb negb].
  assert (C1 : cells h ((match m_owns g with Some true => addr (m_disj g) | _ => [] end) ++ addr (m_prlp g) ++ rest)).
  { unfold gen_roots, owned in C. rewrite app_assoc. destruct (m_owns g) as [[|]|]; try exact C. destruct EG as [EG|EG]; [|discriminate]. rewrite EG in C. cbn [addr] in C. rewrite app_nil_r in C. exact C. }
  destruct (del_if_ok _ _ _ _ (ok_disj _ _ _ OK) (ok_owns _ _ _ OK) C1) as (h1 & -> & C2 & K1).
  unfold setDisjunctionSet, own_flag. cbn [Z.ltb Z.compare Z.eqb negb m_set m_owns].
  assert (D : del_if h1 (m_set g) (Some false) = Some h1) by (pose proof (ok_set _ _ _ OK); destruct (m_set g); [contradiction|reflexivity|reflexivity]). rewrite D.
  cbn [m_disj m_set m_owns m_prlp]. eexists; eexists. split; [reflexivity|]. split.
  - unfold gen_roots, owned. cbn [m_disj m_set m_owns m_prlp]. rewrite EP. cbn [addr app].
    pose proof (ok_prlp _ _ _ OK) as UP. destruct (m_prlp g) as [| |a] eqn:EQ; [contradiction|exact C2|]. apply (cells_leak _ _ _ C2).
    pose proof (ok_kind _ _ _ OK a EQ) as K. destruct K1 as [_ K1]. rewrite K1; [exact K|apply (kind_lt _ _ _ K)].
  - split; [exact K1|]. destruct OKs as [H1 H2 H3 H4 H5 H6 H7]. split; cbn [m_disj m_set m_owns m_prlp]; try assumption; try discriminate; [intros _; apply H6, ES|].
    intros a E. congruence.
Qed.

(** Putting the operation into the program. *)
Lemma roots_split p l1 x l2 : p_gens p = l1 ++ x :: l2 ->
  Permutation (roots p) (gen_roots x ++ p_mine p ++ flat_map gen_roots l1 ++ flat_map gen_roots l2).
Proof.
  intro E. unfold roots. rewrite E, flat_map_app. cbn [flat_map].
  rewrite (Permutation_app_swap_app (flat_map gen_roots l1) (gen_roots x)). apply Permutation_app_swap_app.
Qed.
Lemma with_gen_inv p i g r : inv p -> the_gen p i = Some g ->
  (forall rest, incl (p_mine p) rest -> cells (p_heap p) (gen_roots (Some g) ++ rest) -> effect (p_heap p) rest (p_mine p) r) ->
  exists p', with_gen p i r = Some p' /\ inv p'.
Proof.
  intros [C OK] EG EF. destruct (the_gen_split _ _ _ EG) as (l1 & l2 & EL & ->).
  pose proof (cells_perm _ _ _ (roots_split p l1 (Some g) l2 EL) C) as C1.
  destruct (EF _ ltac:(intros a Ha; apply in_or_app; left; exact Ha) C1) as (h' & g' & -> & C2 & K & OK').
  cbn [with_gen]. rewrite EL, put_mid. eexists. split; [reflexivity|]. split; cbn [p_heap p_mine p_gens].
  - apply (cells_perm _ _ _ (Permutation_sym (roots_split {| p_heap := h'; p_mine := p_mine p; p_gens := l1 ++ Some g' :: l2 |} l1 (Some g') l2 eq_refl))). exact C2.
  - intros x Hx. apply in_app_or in Hx. destruct Hx as [Hx|[E|Hx]].
    + apply (gen_ok_mono (p_heap p) h' (p_mine p)); auto. apply OK. rewrite EL. apply in_or_app. left. exact Hx.
    + injection E as <-. exact OK'.
    + apply (gen_ok_mono (p_heap p) h' (p_mine p)); auto. apply OK. rewrite EL. apply in_or_app. right. right. exact Hx.
Qed.
