(** C84: copies of the event handler of a partial tree, and of the point-ray LP. *)
From Verif Require Import Spec.HandlerSpec.
#[local] Open Scope nat_scope.

Lemma get_app {A} (l : list (option A)) x j : get (l ++ [x]) j = if Nat.eqb j (length l) then x else get l j.
Proof.
  unfold get. destruct (Nat.eqb_spec j (length l)) as [->|N]; [rewrite nth_error_app2, Nat.sub_diag by lia; reflexivity|].
  destruct (Nat.lt_ge_cases j (length l)); [rewrite nth_error_app1 by lia; reflexivity|].
  rewrite nth_error_app2 by lia. destruct (j - length l) as [|k] eqn:D; [lia|]. cbn. rewrite (proj2 (nth_error_None l j)) by lia. destruct k; reflexivity.
Qed.
Lemma get_len {A} (l : list (option A)) i : length l <= i -> get l i = None.
Proof. intros H. unfold get. rewrite (proj2 (nth_error_None l i)) by lia. reflexivity. Qed.
Lemma get_upd {A} (l : list (option A)) i x j : get l i <> None -> get (upd l i x) j = if Nat.eqb j i then x else get l j.
Proof.
  revert i j. induction l as [|c l IH]; intros i j H; [destruct i; exfalso; apply H; reflexivity|]. destruct i as [|i]; [destruct j; reflexivity|]. destruct j as [|j]; [reflexivity|]. apply (IH i j). exact H.
Qed.
Lemma upd_len {A} (l : list (option A)) i x : length (upd l i x) = length l.
Proof. revert i. induction l as [|c l IH]; intros [|i]; cbn; [reflexivity|reflexivity|reflexivity|]. now rewrite IH. Qed.

(** The invariant of all histories. *)
Definition good (w : world) : Prop :=
  (forall o a, owns w o a -> exists q, get (w_solvers w) a = Some q) /\
  (forall o o' a, owns w o a -> owns w o' a -> o = o') /\ NoDup (w_user w) /\
  (forall i h a q, get (w_handlers w) i = Some h -> e_solver h = Some a -> get (w_solvers w) a = Some q -> o_clp q = true).
Lemma owns_bound w o a : good w -> owns w o a -> a < length (w_solvers w).
Proof. intros (L & _) O. destruct (L o a O) as [q Q]. destruct (Nat.lt_ge_cases a (length (w_solvers w))); [assumption|]. rewrite get_len in Q by lia. discriminate. Qed.
Lemma has_solver_iff w i : good w -> has_solver w i <-> exists h a q, get (w_handlers w) i = Some h /\ e_solver h = Some a /\ get (w_solvers w) a = Some q.
Proof.
  intros G. unfold has_solver, view. split.
  - intros (p & q & E). destruct (get (w_handlers w) i) as [h|]; [|discriminate]. destruct (e_solver h) as [a|] eqn:S; [|discriminate]. exists h, a, q. split; [reflexivity|]. split; [exact S|congruence].
  - intros (h & a & q & E & S & Q). exists (e_plain h), q. rewrite E, S, Q. reflexivity.
Qed.
(** A new handler without a solver. *)
Lemma add_null w p : good w -> good (add_handler w (w_solvers w) {| e_plain := p; e_solver := None |}).
Proof.
  intros (L & U & N & K). assert (X : forall o a, owns (add_handler w (w_solvers w) {| e_plain := p; e_solver := None |}) o a -> owns w o a).
  { intros [i|] a; cbn [owns add_handler w_handlers w_user]; [|trivial]. intros (h & E & S). rewrite get_app in E. destruct (Nat.eqb _ _); [injection E as <-; discriminate|]. exists h. split; assumption. }
  split; [|split; [|split]].
  - intros o a O. exact (L o a (X o a O)).
  - intros o o' a O O'. exact (U o o' a (X o a O) (X o' a O')).
  - exact N.
  - cbn [add_handler w_handlers w_solvers]. intros i h a q E S Q. rewrite get_app in E. destruct (Nat.eqb _ _); [injection E as <-; discriminate|]. exact (K i h a q E S Q).
Qed.
(** A handler [i] whose solver is a new clone: added or replaced. *)
Lemma fresh_owner w i q p hs : good w -> o_clp q = true -> (forall j h, get hs j = Some h -> j = i /\ h = {| e_plain := p; e_solver := Some (length (w_solvers w)) |} \/ get (w_handlers w) j = Some h) ->
  good {| w_solvers := w_solvers w ++ [Some q]; w_handlers := hs; w_user := w_user w |}.
Proof.
  intros G C H. assert (B := fun o a => owns_bound w o a G). destruct G as (L & U & N & K). set (w' := {| w_solvers := _; w_handlers := hs; w_user := w_user w |}).
  assert (X : forall o a, owns w' o a -> o = Some i /\ a = length (w_solvers w) \/ owns w o a).
  { intros [j|] a; cbn [owns w' w_handlers w_user]; [|right; assumption]. intros (h & E & S). destruct (H j h E) as [[-> ->]|E']; [left; cbn [e_solver] in S; split; congruence|]. right. exists h. split; assumption. }
  split; [|split; [|split]].
  - intros o a O. cbn [w' w_solvers]. rewrite get_app. destruct (X o a O) as [[_ ->]|O']; [rewrite Nat.eqb_refl; eauto|]. specialize (B o a O'). destruct (Nat.eqb_spec a (length (w_solvers w))); [lia|]. exact (L o a O').
  - intros o o' a O O'. destruct (X o a O) as [[-> E]|P]; destruct (X o' a O') as [[-> E']|P'].
    + reflexivity.
    + specialize (B o' a P'). lia.
    + specialize (B o a P). lia.
    + exact (U o o' a P P').
  - exact N.
  - cbn [w' w_handlers w_solvers]. intros j h a r E S Q. rewrite get_app in Q. destruct (H j h E) as [[-> ->]|E'].
    + cbn [e_solver] in S. injection S as <-. rewrite Nat.eqb_refl in Q. congruence.
    + assert (O : owns w (Some j) a) by (exists h; split; assumption). specialize (B _ a O). destruct (Nat.eqb_spec a (length (w_solvers w))); [lia|]. exact (K j h a r E' S Q).
Qed.
(** The user is handed a clone. *)
Lemma hand_out w q : good w -> good {| w_solvers := w_solvers w ++ [Some q]; w_handlers := w_handlers w; w_user := length (w_solvers w) :: w_user w |}.
Proof.
  intros G. assert (B := fun o a => owns_bound w o a G). destruct G as (L & U & N & K). set (w' := {| w_solvers := _; w_handlers := _; w_user := _ |}).
  assert (X : forall o a, owns w' o a -> o = None /\ a = length (w_solvers w) \/ owns w o a).
  { intros [j|] a; cbn [owns w' w_handlers w_user]; [right; assumption|]. intros [<-|O]; [left; split; reflexivity|right; exact O]. }
  split; [|split; [|split]].
  - intros o a O. cbn [w' w_solvers]. rewrite get_app. destruct (X o a O) as [[_ ->]|O']; [rewrite Nat.eqb_refl; eauto|]. specialize (B o a O'). destruct (Nat.eqb_spec a (length (w_solvers w))); [lia|]. exact (L o a O').
  - intros o o' a O O'. destruct (X o a O) as [[-> E]|P]; destruct (X o' a O') as [[-> E']|P'].
    + reflexivity.
    + specialize (B o' a P'). lia.
    + specialize (B o a P). lia.
    + exact (U o o' a P P').
  - cbn [w' w_user]. constructor; [|exact N]. intros O. specialize (B None _ O). lia.
  - cbn [w' w_handlers w_solvers]. intros j h a r E S Q. rewrite get_app in Q. assert (O : owns w (Some j) a) by (exists h; split; assumption). specialize (B _ a O).
    destruct (Nat.eqb_spec a (length (w_solvers w))); [lia|]. exact (K j h a r E S Q).
Qed.
(** A solver is deleted with its only owner. *)
Lemma kill_owner w o a hs us : good w -> owns w o a -> NoDup us ->
  (forall o' b, owns {| w_solvers := w_solvers w; w_handlers := hs; w_user := us |} o' b -> owns w o' b /\ b <> a) ->
  (forall j h, get hs j = Some h -> get (w_handlers w) j = Some h) ->
  good {| w_solvers := upd (w_solvers w) a None; w_handlers := hs; w_user := us |}.
Proof.
  intros (L & U & N & K) O Nu X H. destruct (L o a O) as [q Q]. assert (Ne : get (w_solvers w) a <> None) by congruence. split; [|split; [|split]].
  - intros o' b O'. destruct (X o' b O') as [P D]. cbn [w_solvers]. rewrite get_upd by exact Ne. destruct (Nat.eqb_spec b a); [contradiction|]. exact (L _ _ P).
  - intros o1 o2 b O1 O2. exact (U _ _ _ (proj1 (X o1 b O1)) (proj1 (X o2 b O2))).
  - exact Nu.
  - cbn [w_handlers w_solvers]. intros j h b r E S Q'. rewrite get_upd in Q' by exact Ne. destruct (Nat.eqb b a); [discriminate|]. exact (K j h b r (H j h E) S Q').
Qed.
Lemma good_step w c w' : good w -> allowed w c -> hexec w c = Some w' -> good w'.
Proof.
  intros G A E. destruct c as [|o m t k|i|m|i j|i q ret|i f|i|a]; cbn [hexec] in E; cbn [allowed] in A.
  - injection E as <-. apply add_null, G.
  - injection E as <-. apply add_null, G.
  - apply (has_solver_iff w i G) in A. destruct A as (h & a & q & Hh & S & Q). rewrite Hh in E. cbn [h_initialize] in E. unfold clone_solver in E. rewrite S, Q in E. assert (C : o_clp q = true) by (destruct G as (_ & _ & _ & K); exact (K i h a q Hh S Q)). rewrite C in E. injection E as <-.
    apply (fresh_owner w (length (w_handlers w)) q (plain_from None (e_plain h))); [exact G|exact C|]. intros j x Hj. rewrite get_app in Hj. destruct (Nat.eqb_spec j (length (w_handlers w))) as [->|_]; [left; split; [reflexivity|congruence]|right; exact Hj].
  - destruct m as [| |i]; [injection E as <-; apply add_null, G|injection E as <-; apply add_null, G|].
    apply (has_solver_iff w i G) in A. destruct A as (h & a & q & Hh & S & Q). rewrite Hh in E. cbn [h_initialize] in E. unfold clone_solver in E. rewrite S, Q in E. assert (C : o_clp q = true) by (destruct G as (_ & _ & _ & K); exact (K i h a q Hh S Q)). rewrite C in E. injection E as <-.
    apply (fresh_owner w (length (w_handlers w)) q (plain_from None (e_plain h))); [exact G|exact C|]. intros j x Hj. rewrite get_app in Hj. destruct (Nat.eqb_spec j (length (w_handlers w))) as [->|_]; [left; split; [reflexivity|congruence]|right; exact Hj].
  - destruct A as [A1 A2]. apply (has_solver_iff w j G) in A2. destruct A2 as (h & a & q & Hh & S & Q). unfold exists_handler in A1. destruct (get (w_handlers w) i) as [this|] eqn:Hi; [|congruence]. rewrite Hh in E. cbn [h_initialize] in E. unfold clone_solver in E. rewrite S, Q in E.
    assert (C : o_clp q = true) by (destruct G as (_ & _ & _ & K); exact (K j h a q Hh S Q)). rewrite C in E. injection E as <-.
    apply (fresh_owner w i q (plain_from (e_parent (e_plain this)) (e_plain h))); [exact G|exact C|]. intros l x Hl. rewrite get_upd in Hl by congruence. destruct (Nat.eqb_spec l i) as [->|_]; [left; split; [reflexivity|congruence]|right; exact Hl].
  - destruct A as [A1 A2]. unfold exists_handler in A1. destruct (get (w_handlers w) i) as [h|] eqn:Hi; [|congruence]. rewrite A2 in E. cbn [negb] in E.
    assert (F : forall v, good v -> w_handlers v = w_handlers w ->
       good {| w_solvers := w_solvers v ++ [Some q]; w_handlers := upd (w_handlers w) i (Some {| e_plain := with_bounds (e_plain h) q; e_solver := Some (length (w_solvers v)) |}); w_user := w_user v |}).
    { intros v Gv Hv. apply (fresh_owner v i q (with_bounds (e_plain h) q)); [exact Gv|exact A2|]. rewrite Hv. intros l x Hl. rewrite get_upd in Hl by congruence. destruct (Nat.eqb_spec l i) as [->|_]; [left; split; [reflexivity|congruence]|right; exact Hl]. }
    destruct (if ret then e_solver h else None) as [a|]; [|injection E as <-; exact (F w G eq_refl)].
    destruct (get (w_solvers w) a) as [old|]; [|discriminate]. injection E as <-. exact (F _ (hand_out w old G) eq_refl).
  - unfold exists_handler in A. destruct (get (w_handlers w) i) as [h|] eqn:Hi; [|congruence]. injection E as <-.
    assert (X : forall j x, get (upd (w_handlers w) i (Some {| e_plain := f (e_plain h); e_solver := e_solver h |})) j = Some x -> exists y, get (w_handlers w) j = Some y /\ e_solver y = e_solver x).
    { intros j x Hj. rewrite get_upd in Hj by congruence. destruct (Nat.eqb_spec j i) as [->|_]; [exists h; injection Hj as <-; split; [exact Hi|reflexivity]|exists x; split; [exact Hj|reflexivity]]. }
    destruct G as (L & U & N & K).
    assert (Y : forall o a, owns (put_handler w (w_solvers w) i {| e_plain := f (e_plain h); e_solver := e_solver h |}) o a -> owns w o a).
    { intros [j|] a; cbn [owns put_handler w_handlers w_user]; [|trivial]. intros (x & Ex & S). destruct (X j x Ex) as (y & Ey & Sy). exists y. split; [exact Ey|congruence]. }
    split; [|split; [|split]].
    + intros o a O. exact (L o a (Y o a O)).
    + intros o o' a O O'. exact (U o o' a (Y o a O) (Y o' a O')).
    + exact N.
    + cbn [put_handler w_handlers w_solvers]. intros j x a q Ex S Q. destruct (X j x Ex) as (y & Ey & Sy). apply (K j y a q Ey); [congruence|exact Q].
  - unfold exists_handler in A. destruct (get (w_handlers w) i) as [h|] eqn:Hi; [|congruence].
    assert (X : forall j x, get (upd (w_handlers w) i None) j = Some x -> j <> i /\ get (w_handlers w) j = Some x). { intros j x Hj. rewrite get_upd in Hj by congruence. destruct (Nat.eqb_spec j i); [discriminate|]. split; assumption. }
    assert (Y : forall s o a, owns {| w_solvers := s; w_handlers := upd (w_handlers w) i None; w_user := w_user w |} o a -> owns w o a /\ o <> Some i).
    { intros s [j|] a; cbn [owns w_handlers w_user]; [|split; [assumption|discriminate]]. intros (x & Ex & S). destruct (X j x Ex) as [D Ey]. split; [exists x; split; assumption|congruence]. }
    destruct (e_solver h) as [a|] eqn:S.
    + destruct (get (w_solvers w) a) as [q|] eqn:Q; [|discriminate]. injection E as <-. assert (Oi : owns w (Some i) a) by (exists h; split; assumption). apply (kill_owner w (Some i) a); [exact G|exact Oi|apply G| |intros j x Hj; exact (proj2 (X j x Hj))].
      intros o' b Ob. destruct (Y _ o' b Ob) as [P D]. split; [exact P|]. intros ->. destruct G as (_ & U & _). exact (D (U _ _ _ P Oi)).
    + injection E as <-. destruct G as (L & U & N & K). split; [|split; [|split]].
      * intros o a O. exact (L o a (proj1 (Y _ o a O))).
      * intros o o' a O O'. exact (U o o' a (proj1 (Y _ o a O)) (proj1 (Y _ o' a O'))).
      * exact N.
      * cbn [w_handlers w_solvers]. intros j x a q Ex Sx Q. exact (K j x a q (proj2 (X j x Ex)) Sx Q).
  - destruct (get (w_solvers w) a) as [q|] eqn:Q; [|discriminate]. injection E as <-. assert (N : NoDup (w_user w)) by apply G. apply (kill_owner w None a); [exact G|exact A| | |intros j h Hj; exact Hj].
    + clear - N. induction (w_user w) as [|b l IH]; [constructor|]. inversion N as [|? ? Hb N']; subst. cbn [remove]. destruct (Nat.eq_dec a b); [exact (IH N')|]. constructor; [|exact (IH N')]. intros Hr. apply in_remove in Hr. tauto.
    + intros [j|] b; cbn [owns w_handlers w_user]; [|intros O; apply in_remove in O; exact O]. intros O. split; [exact O|]. intros ->. destruct G as (_ & U & _). discriminate (U (Some j) None a O A).
Qed.
Lemma history_good w : history w -> good w.
Proof.
  intros H. induction H as [|w c w' H IH A E]; [|exact (good_step w c w' IH A E)]. split; [|split; [|split]].
  - intros [i|] a; cbn; [intros (h & E & _); destruct i; discriminate|intros []].
  - intros [i|] o' a; cbn; [intros (h & E & _); destruct i; discriminate|intros []].
  - constructor.
  - intros i h a q E. destruct i; discriminate.
Qed.

(** ** Nothing is undefined *)
Theorem never_undefined w c : history w -> allowed w c -> exists w', hexec w c = Some w'.
Proof.
  intros H A. assert (G := history_good w H). assert (C : forall i, has_solver w i -> forall p, exists h s h', get (w_handlers w) i = Some h /\ h_initialize (w_solvers w) p (Some h) = Some (s, h')).
  { intros i Hi p. apply (has_solver_iff w i G) in Hi. destruct Hi as (h & a & q & Hh & S & Q). exists h. cbn [h_initialize]. unfold clone_solver. rewrite S, Q. eauto. }
  destruct c as [|o m t k|i|m|i j|i q ret|i f|i|a]; cbn [hexec]; cbn [allowed] in A.
  - eauto.
  - eauto.
  - destruct (C i A None) as (h & s & h' & -> & ->). eauto.
  - destruct m as [| |i]; [cbn [h_initialize]; eauto|cbn [h_initialize]; eauto|]. destruct (C i A None) as (h & s & h' & -> & ->). eauto.
  - destruct A as [A1 A2]. unfold exists_handler in A1. destruct (get (w_handlers w) i) as [this|]; [|congruence]. destruct (C j A2 (e_parent (e_plain this))) as (h & s & h' & -> & ->). eauto.
  - destruct A as [A1 A2]. unfold exists_handler in A1. destruct (get (w_handlers w) i) as [h|] eqn:Hi; [|congruence]. rewrite A2. cbn [negb]. destruct ret; [|eauto]. destruct (e_solver h) as [a|] eqn:S; [|eauto].
    destruct G as (L & _). destruct (L (Some i) a) as [old Q]; [exists h; split; assumption|]. rewrite Q. eauto.
  - unfold exists_handler in A. destruct (get (w_handlers w) i); [eauto|congruence].
  - unfold exists_handler in A. destruct (get (w_handlers w) i) as [h|] eqn:Hi; [|congruence]. destruct (e_solver h) as [a|] eqn:S; [|eauto]. destruct G as (L & _). destruct (L (Some i) a) as [old Q]; [exists h; split; assumption|]. rewrite Q. eauto.
  - destruct G as (L & _). destruct (L None a A) as [old Q]. rewrite Q. eauto.
Qed.
Print Assumptions never_undefined.

(** What a step does to solvers and to the other handlers. *)
Definition frees (w : world) (c : hcmd) (a : nat) : Prop := match c with HDestroy i => owns w (Some i) a | UDelete b => b = a | _ => False end.
Lemma solvers_step w c w' a : good w -> hexec w c = Some w' -> a < length (w_solvers w) -> ~ frees w c a -> get (w_solvers w') a = get (w_solvers w) a.
Proof.
  intros G E B F. assert (X : forall q, get (w_solvers w ++ [q]) a = get (w_solvers w) a). { intros q. rewrite get_app. destruct (Nat.eqb_spec a (length (w_solvers w))); [lia|reflexivity]. }
  assert (Y : forall p h s h', h_initialize (w_solvers w) p (Some h) = Some (s, h') -> get s a = get (w_solvers w) a).
  { intros p h s h' I. cbn [h_initialize] in I. unfold clone_solver in I. destruct (e_solver h) as [b|]; [|discriminate]. destruct (get (w_solvers w) b) as [q|]; [|discriminate]. injection I as <- _. apply X. }
  destruct c as [|o m t k|i|m|i j|i q ret|i f|i|b]; cbn [hexec] in E; cbn [frees] in F.
  - injection E as <-. reflexivity.
  - injection E as <-. reflexivity.
  - destruct (get (w_handlers w) i) as [h|]; [|discriminate]. destruct (h_initialize _ _ _) as [[s h']|] eqn:I; [|discriminate]. injection E as <-. exact (Y _ _ _ _ I).
  - destruct m as [| |i]; [injection E as <-; reflexivity|injection E as <-; reflexivity|]. destruct (get (w_handlers w) i) as [h|]; [|discriminate]. destruct (h_initialize _ _ _) as [[s h']|] eqn:I; [|discriminate]. injection E as <-. exact (Y _ _ _ _ I).
  - destruct (get (w_handlers w) i) as [this|]; [|discriminate]. destruct (get (w_handlers w) j) as [h|]; [|discriminate]. destruct (h_initialize _ _ _) as [[s h']|] eqn:I; [|discriminate]. injection E as <-. exact (Y _ _ _ _ I).
  - destruct (get (w_handlers w) i) as [h|]; [|discriminate]. destruct (negb _); [discriminate|]. destruct (if ret then e_solver h else None) as [b|]; [|injection E as <-; apply X]. destruct (get (w_solvers w) b) as [old|]; [|discriminate]. injection E as <-. cbn [w_solvers].
    rewrite get_app. rewrite app_length. cbn [length]. destruct (Nat.eqb_spec a (length (w_solvers w) + 1)); [lia|]. apply X.
  - destruct (get (w_handlers w) i) as [h|]; [|discriminate]. injection E as <-. reflexivity.
  - destruct (get (w_handlers w) i) as [h|] eqn:Hi; [|discriminate]. destruct (e_solver h) as [b|] eqn:S; [|injection E as <-; reflexivity]. destruct (get (w_solvers w) b) as [q|] eqn:Q; [|discriminate]. injection E as <-. cbn [w_solvers]. rewrite get_upd by congruence.
    destruct (Nat.eqb_spec a b) as [->|_]; [|reflexivity]. exfalso. apply F. exists h. split; assumption.
  - destruct (get (w_solvers w) b) as [q|] eqn:Q; [|discriminate]. injection E as <-. cbn [w_solvers]. rewrite get_upd by congruence. destruct (Nat.eqb_spec a b) as [->|_]; [contradiction (F eq_refl)|reflexivity].
Qed.
Lemma handlers_step w c w' k : hexec w c = Some w' -> exists_handler w k -> ~ touches c k -> get (w_handlers w') k = get (w_handlers w) k.
Proof.
  intros E L T. unfold exists_handler in L. assert (X : forall x, get (w_handlers w ++ [x]) k = get (w_handlers w) k).
  { intros x. rewrite get_app. destruct (Nat.eqb_spec k (length (w_handlers w))) as [->|_]; [|reflexivity]. rewrite get_len in L by lia. congruence. }
  assert (Y : forall i x, get (w_handlers w) i <> None -> i <> k -> get (upd (w_handlers w) i x) k = get (w_handlers w) k). { intros i x Hi D. rewrite get_upd by exact Hi. destruct (Nat.eqb_spec k i); [congruence|reflexivity]. }
  destruct c as [|o m t kk|i|m|i j|i q ret|i f|i|b]; cbn [hexec] in E; cbn [touches] in T.
  - injection E as <-. apply X.
  - injection E as <-. apply X.
  - destruct (get (w_handlers w) i) as [h|]; [|discriminate]. destruct (h_initialize _ _ _) as [[s h']|]; [|discriminate]. injection E as <-. apply X.
  - destruct m as [| |i]; [injection E as <-; apply X|injection E as <-; apply X|]. destruct (get (w_handlers w) i) as [h|]; [|discriminate]. destruct (h_initialize _ _ _) as [[s h']|]; [|discriminate]. injection E as <-. apply X.
  - destruct (get (w_handlers w) i) as [this|] eqn:Hi; [|discriminate]. destruct (get (w_handlers w) j) as [h|]; [|discriminate]. destruct (h_initialize _ _ _) as [[s h']|]; [|discriminate]. injection E as <-. apply Y; [congruence|exact T].
  - destruct (get (w_handlers w) i) as [h|] eqn:Hi; [|discriminate]. destruct (negb _); [discriminate|]. destruct (if ret then e_solver h else None) as [b|]; [destruct (get (w_solvers w) b); [|discriminate]|]; injection E as <-; apply Y; congruence.
  - destruct (get (w_handlers w) i) as [h|] eqn:Hi; [|discriminate]. injection E as <-. apply Y; [congruence|exact T].
  - destruct (get (w_handlers w) i) as [h|] eqn:Hi; [|discriminate]. destruct (match e_solver h with None => _ | Some _ => _ end) as [s|]; [|discriminate]. injection E as <-. apply Y; [congruence|exact T].
  - destruct (get (w_solvers w) b); [|discriminate]. injection E as <-. reflexivity.
Qed.

(** ** Independence *)
(** Whatever is done to other handlers or to solvers handed out - copies, originals, deletions - changes nothing of a handler. *)
Theorem independent w c w' k : history w -> allowed w c -> hexec w c = Some w' -> exists_handler w k -> ~ touches c k -> view w' k = view w k.
Proof.
  intros H A E L T. assert (G := history_good w H). unfold view. rewrite (handlers_step w c w' k E L T). destruct (get (w_handlers w) k) as [h|] eqn:Hk; [|reflexivity]. destruct (e_solver h) as [a|] eqn:S; [|reflexivity]. do 2 f_equal.
  assert (O : owns w (Some k) a) by (exists h; split; assumption). apply (solvers_step w c w' a G E (owns_bound w (Some k) a G O)). intros F. destruct G as (_ & U & _).
  destruct c as [|o m t kk|i|m|i j|i q ret|i f|i|b]; cbn [frees] in F; try exact F.
  - apply T. cbn [touches]. specialize (U _ _ _ F O). congruence.
  - subst b. cbn [allowed] in A. discriminate (U (Some k) None a O A).
Qed.
Print Assumptions independent.
(** A solver handed to the user stays as it is until the user deletes it. *)
Theorem handed_out_stays w c w' a : history w -> allowed w c -> hexec w c = Some w' -> In a (w_user w) -> c <> UDelete a ->
  In a (w_user w') /\ get (w_solvers w') a = get (w_solvers w) a /\ in_memory w a.
Proof.
  intros H A E I N. assert (G := history_good w H). assert (O : owns w None a) by exact I. split; [|split].
  - destruct c as [|o m t kk|i|m|i j|i q ret|i f|i|b]; cbn [hexec] in E.
    + injection E as <-. exact I.
    + injection E as <-. exact I.
    + destruct (get (w_handlers w) i) as [h|]; [|discriminate]. destruct (h_initialize _ _ _) as [[s h']|]; [|discriminate]. injection E as <-. exact I.
    + destruct m as [| |i]; [injection E as <-; exact I|injection E as <-; exact I|]. destruct (get (w_handlers w) i) as [h|]; [|discriminate]. destruct (h_initialize _ _ _) as [[s h']|]; [|discriminate]. injection E as <-. exact I.
    + destruct (get (w_handlers w) i) as [this|]; [|discriminate]. destruct (get (w_handlers w) j) as [h|]; [|discriminate]. destruct (h_initialize _ _ _) as [[s h']|]; [|discriminate]. injection E as <-. exact I.
    + destruct (get (w_handlers w) i) as [h|]; [|discriminate]. destruct (negb _); [discriminate|]. destruct (if ret then e_solver h else None) as [b|]; [destruct (get (w_solvers w) b); [|discriminate]|]; injection E as <-; [right; exact I|exact I].
    + destruct (get (w_handlers w) i) as [h|]; [|discriminate]. injection E as <-. exact I.
    + destruct (get (w_handlers w) i) as [h|]; [|discriminate]. destruct (match e_solver h with None => _ | Some _ => _ end) as [s|]; [|discriminate]. injection E as <-. exact I.
    + destruct (get (w_solvers w) b); [|discriminate]. injection E as <-. cbn [w_user]. apply in_in_remove; [congruence|exact I].
  - apply (solvers_step w c w' a G E (owns_bound w None a G O)). intros F. destruct G as (_ & U & _). destruct c as [|o m t kk|i|m|i j|i q ret|i f|i|b]; cbn [frees] in F; try exact F.
    + discriminate (U (Some i) None a F O).
    + congruence.
  - destruct G as (L & _). destruct (L None a O) as [q Q]. unfold in_memory. congruence.
Qed.
Print Assumptions handed_out_stays.

(** ** Copies are equal *)
Lemma copy_result w i p q : good w -> view w i = Some (p, Some q) -> forall par, exists h, get (w_handlers w) i = Some h /\ e_plain h = p /\ o_clp q = true /\
  h_initialize (w_solvers w) par (Some h) = Some (w_solvers w ++ [Some q], {| e_plain := with_parent par p; e_solver := Some (length (w_solvers w)) |}).
Proof.
  intros (_ & _ & _ & K) V par. unfold view in V. destruct (get (w_handlers w) i) as [h|] eqn:Hh; [|discriminate]. exists h. destruct (e_solver h) as [a|] eqn:S; [|discriminate]. injection V as V1 V2. assert (C := K i h a q Hh S V2).
  split; [reflexivity|]. split; [exact V1|]. split; [exact C|]. cbn [h_initialize]. unfold clone_solver. rewrite S, V2, C, V1. reflexivity.
Qed.
Lemma view_new w q p : view (add_handler w (w_solvers w ++ [Some q]) {| e_plain := p; e_solver := Some (length (w_solvers w)) |}) (length (w_handlers w)) = Some (p, Some q).
Proof. unfold view. cbn [add_handler w_handlers w_solvers]. rewrite get_app, Nat.eqb_refl. cbn [e_solver e_plain]. rewrite get_app, Nat.eqb_refl. reflexivity. Qed.
(** The copy constructor, clone (Cbc clones the handler it is given) and the constructor with a model: all members and the solver's contents
    are those of the source, which is unchanged; only parent_ is not written. *)
Theorem copy_equal w c w' i p q : history w -> c = HCopy i \/ c = HFromModel (MOurs i) -> hexec w c = Some w' -> view w i = Some (p, Some q) ->
  view w' (length (w_handlers w)) = Some (with_parent None p, Some q) /\ view w' i = Some (p, Some q).
Proof.
  intros H C E V. assert (G := history_good w H). destruct (copy_result w i p q G V None) as (h & Hh & Hp & Cl & I). assert (A : has_solver w i) by (exists p, q; exact V). split.
  - destruct C as [-> | ->]; cbn [hexec] in E; rewrite Hh, I in E; injection E as <-; apply view_new.
  - rewrite <- V. apply (independent w c w' i H); [destruct C as [-> | ->]; exact A|exact E| |destruct C as [-> | ->]; intros []]. unfold exists_handler. congruence.
Qed.
Print Assumptions copy_equal.
(** Operator=, also of a handler to itself. *)
Theorem assign_equal w w' i j p q pi si : history w -> hexec w (HAssign i j) = Some w' -> view w j = Some (p, Some q) -> view w i = Some (pi, si) ->
  view w' i = Some (with_parent (e_parent pi) p, Some q) /\ view w' j = Some (p, Some q).
Proof.
  intros H E V Vi. assert (G := history_good w H). unfold view in Vi. destruct (get (w_handlers w) i) as [this|] eqn:Hi; [|discriminate]. injection Vi as <- _. cbn [hexec] in E. rewrite Hi in E.
  destruct (copy_result w j p q G V (e_parent (e_plain this))) as (h & Hh & Hp & Cl & I). rewrite Hh, I in E. assert (E0 := E). injection E as <-.
  assert (X : view (put_handler w (w_solvers w ++ [Some q]) i {| e_plain := with_parent (e_parent (e_plain this)) p; e_solver := Some (length (w_solvers w)) |}) i = Some (with_parent (e_parent (e_plain this)) p, Some q)).
  { unfold view. cbn [put_handler w_handlers w_solvers]. rewrite get_upd, Nat.eqb_refl by congruence. cbn [e_solver e_plain]. rewrite get_app, Nat.eqb_refl. reflexivity. }
  split; [exact X|]. destruct (Nat.eq_dec i j) as [D|D].
  - subst j. rewrite X. assert (this = h) by congruence. subst this. rewrite Hp. destruct p; reflexivity.
  - rewrite <- V. refine (independent w (HAssign i j) _ j H _ _ _ _); [split; [unfold exists_handler; congruence|exists p, q; exact V]|cbn [hexec]; rewrite Hi, Hh, I; reflexivity|unfold exists_handler; congruence|exact D].
Qed.
Print Assumptions assign_equal.
(** A new handler has no solver, no bounds, no statistics and no limits, unless it is made for a disjunction; so has one made from a model
    without a handler of this class. *)
Definition starts_empty (p : hplain) : Prop :=
  e_ncuts p = 0%Z /\ e_ontree p = 0%Z /\ e_leaf p = 0%Z /\ e_nodes p = 0%Z /\ e_obj p = DBL_MAXv /\ e_lower p = [] /\ e_upper p = [] /\ e_stats p = [] /\ e_pruned p = [] /\
  e_final p = [] /\ e_saved p = [] /\ e_cuts p = [] /\ e_current p = [] /\ e_parent p = None /\ e_info p = None /\ e_child p = None /\ e_prune p = 0%Z /\ e_end p = false /\ e_found p = false.
Theorem new_handler w c w' : hexec w c = Some w' ->
  (c = HNew \/ c = HFromModel MNone \/ c = HFromModel MOther -> exists p, view w' (length (w_handlers w)) = Some (p, None) /\ starts_empty p /\ e_owner p = None /\ e_max p = 0%Z /\ e_time p = 0%Q /\ e_keep p = false) /\
  (forall o m t k, c = HNewFor o m t k -> exists p, view w' (length (w_handlers w)) = Some (p, None) /\ starts_empty p /\ e_owner p = Some o /\ e_max p = m /\ e_time p = t /\ e_keep p = k).
Proof.
  intros E. split.
  - intros C. exists (plain_null None). split; [|repeat split]. destruct C as [-> |[-> | ->]]; cbn [hexec h_initialize] in E; injection E as <-; unfold view; cbn [add_handler w_handlers]; rewrite get_app, Nat.eqb_refl; reflexivity.
  - intros o m t k ->. exists (plain_for o m t k). split; [|repeat split]. cbn [hexec] in E. injection E as <-. unfold view. cbn [add_handler w_handlers]. rewrite get_app, Nat.eqb_refl. reflexivity.
Qed.
Print Assumptions new_handler.
(** Giving a solver: the handler has a copy of it and its bounds, other members are unchanged; with [return_old] the caller gets a copy of
    the solver the handler had. *)
Definition set_bounds (lo up : list Q) (p : hplain) : hplain :=
  {| e_owner := e_owner p; e_max := e_max p; e_ncuts := e_ncuts p; e_time := e_time p; e_keep := e_keep p; e_ontree := e_ontree p; e_leaf := e_leaf p;
     e_nodes := e_nodes p; e_obj := e_obj p; e_lower := lo; e_upper := up; e_stats := e_stats p; e_pruned := e_pruned p;
     e_final := e_final p; e_saved := e_saved p; e_cuts := e_cuts p; e_current := e_current p; e_parent := e_parent p; e_info := e_info p;
     e_child := e_child p; e_prune := e_prune p; e_end := e_end p; e_found := e_found p |}.
Theorem solver_set w w' i q r p s : history w -> hexec w (HSet i q r) = Some w' -> view w i = Some (p, s) ->
  view w' i = Some (set_bounds (o_lower q) (o_upper q) p, Some q) /\
  match (if r then s else None) with
  | Some old => exists a, w_user w' = a :: w_user w /\ get (w_solvers w') a = Some old /\ ~ owns w' (Some i) a
  | None => w_user w' = w_user w
  end.
Proof.
  intros H E V. assert (G := history_good w H). unfold view in V. destruct (get (w_handlers w) i) as [h|] eqn:Hi; [|discriminate]. injection V as <- V. cbn [hexec] in E. rewrite Hi in E. destruct (o_clp q); [|discriminate]. cbn [negb] in E.
  assert (X : forall s0 u, view {| w_solvers := s0 ++ [Some q]; w_handlers := upd (w_handlers w) i (Some {| e_plain := with_bounds (e_plain h) q; e_solver := Some (length s0) |}); w_user := u |} i = Some (set_bounds (o_lower q) (o_upper q) (e_plain h), Some q)).
  { intros s0 u. unfold view. cbn [w_handlers w_solvers]. rewrite get_upd, Nat.eqb_refl by congruence. cbn [e_solver e_plain]. rewrite get_app, Nat.eqb_refl. reflexivity. }
  destruct r.
  - destruct (e_solver h) as [a|] eqn:S; [|subst s; injection E as <-; split; [apply X|reflexivity]]. destruct G as (L & _). destruct (L (Some i) a) as [old Q]; [exists h; split; assumption|]. rewrite Q in E, V. subst s. injection E as <-. split; [apply X|].
    exists (length (w_solvers w)). split; [reflexivity|]. cbn [w_solvers]. split; [rewrite get_app, app_length; cbn [length]; destruct (Nat.eqb_spec (length (w_solvers w)) (length (w_solvers w) + 1)); [lia|]; rewrite get_app, Nat.eqb_refl; reflexivity|].
    intros (x & Ex & Sx). cbn [w_handlers] in Ex. rewrite get_upd, Nat.eqb_refl in Ex by congruence. injection Ex as <-. cbn [e_solver] in Sx. rewrite app_length in Sx. cbn [length] in Sx. injection Sx as Sx. lia.
  - injection E as <-. split; [apply X|reflexivity].
Qed.
Print Assumptions solver_set.

(** ** Memory *)
Lemma owner_new w c w' o a : good w -> hexec w c = Some w' -> owns w' o a -> owns w o a \/ length (w_solvers w) <= a.
Proof.
  intros G E O.
  assert (Y : forall p h s h' b, h_initialize (w_solvers w) p h = Some (s, h') -> e_solver h' = Some b -> b = length (w_solvers w)).
  { intros p [h|] s h' b I S; cbn [h_initialize] in I; [|injection I as _ <-; discriminate]. destruct (clone_solver (w_solvers w) (e_solver h)) as [[s0 a0]|] eqn:C; [|discriminate]. injection I as _ <-. cbn [e_solver] in S. unfold clone_solver in C. destruct (e_solver h) as [x|]; [|discriminate].
    destruct (get (w_solvers w) x) as [q|]; [|discriminate]. injection C as _ <-. destruct (o_clp q); congruence. }
  assert (Z1 : forall s h, owns (add_handler w s h) o a -> owns w o a \/ e_solver h = Some a).
  { intros s h. destruct o as [j|]; cbn [owns add_handler w_handlers w_user]; [|left; assumption]. intros (x & Ex & S). rewrite get_app in Ex. destruct (Nat.eqb _ _); [injection Ex as ->; right; exact S|left; exists x; split; assumption]. }
  assert (Z2 : forall s i h u, get (w_handlers w) i <> None -> owns {| w_solvers := s; w_handlers := upd (w_handlers w) i (Some h); w_user := u |} o a -> (o = Some i /\ e_solver h = Some a) \/ (exists j, o = Some j /\ j <> i /\ owns w o a) \/ (o = None /\ In a u)).
  { intros s i h u Hi. destruct o as [j|]; cbn [owns w_handlers w_user]; [|right; right; split; [reflexivity|assumption]]. intros (x & Ex & S). rewrite get_upd in Ex by exact Hi. destruct (Nat.eqb_spec j i) as [->|D]; [left; injection Ex as ->; split; [reflexivity|exact S]|right; left; exists j; split; [reflexivity|]; split; [exact D|]; exists x; split; assumption]. }
  destruct c as [|o0 m t k|i|m|i j|i q ret|i f|i|b]; cbn [hexec] in E.
  - injection E as <-. destruct (Z1 _ _ O) as [P|P]; [left; exact P|discriminate].
  - injection E as <-. destruct (Z1 _ _ O) as [P|P]; [left; exact P|discriminate].
  - destruct (get (w_handlers w) i) as [h|]; [|discriminate]. destruct (h_initialize _ _ _) as [[s h']|] eqn:I; [|discriminate]. injection E as <-. destruct (Z1 _ _ O) as [P|P]; [left; exact P|right; rewrite (Y _ _ _ _ _ I P); lia].
  - destruct m as [| |i]; [injection E as <-; destruct (Z1 _ _ O) as [P|P]; [left; exact P|discriminate]|injection E as <-; destruct (Z1 _ _ O) as [P|P]; [left; exact P|discriminate]|].
    destruct (get (w_handlers w) i) as [h|]; [|discriminate]. destruct (h_initialize _ _ _) as [[s h']|] eqn:I; [|discriminate]. injection E as <-. destruct (Z1 _ _ O) as [P|P]; [left; exact P|right; rewrite (Y _ _ _ _ _ I P); lia].
  - destruct (get (w_handlers w) i) as [this|] eqn:Hi; [|discriminate]. destruct (get (w_handlers w) j) as [h|]; [|discriminate]. destruct (h_initialize _ _ _) as [[s h']|] eqn:I; [|discriminate]. injection E as <-.
    destruct (Z2 s i h' (w_user w) ltac:(congruence) O) as [[_ P]|[(x & _ & _ & P)|[-> P]]]; [right; rewrite (Y _ _ _ _ _ I P); lia|left; exact P|left; exact P].
  - destruct (get (w_handlers w) i) as [h|] eqn:Hi; [|discriminate]. destruct (negb _); [discriminate|]. destruct (if ret then e_solver h else None) as [b|].
    + destruct (get (w_solvers w) b); [|discriminate]. injection E as <-. destruct (Z2 _ i _ _ ltac:(congruence) O) as [[_ P]|[(x & _ & _ & P)|[-> P]]]; [right; cbn [e_solver] in P; injection P as <-; rewrite app_length; lia|left; exact P|]. destruct P as [<-|P]; [right; lia|left; exact P].
    + injection E as <-. destruct (Z2 _ i _ _ ltac:(congruence) O) as [[_ P]|[(x & _ & _ & P)|[-> P]]]; [right; cbn [e_solver] in P; injection P as <-; lia|left; exact P|left; exact P].
  - destruct (get (w_handlers w) i) as [h|] eqn:Hi; [|discriminate]. injection E as <-. destruct (Z2 _ i _ _ ltac:(congruence) O) as [[-> P]|[(x & _ & _ & P)|[-> P]]]; [left; exists h; split; [exact Hi|exact P]|left; exact P|left; exact P].
  - destruct (get (w_handlers w) i) as [h|] eqn:Hi; [|discriminate]. destruct (match e_solver h with None => _ | Some _ => _ end) as [s|]; [|discriminate]. injection E as <-. left. destruct o as [j|]; [|exact O]. destruct O as (x & Ex & S). cbn [w_handlers] in Ex. rewrite get_upd in Ex by congruence. destruct (Nat.eqb j i); [discriminate|]. exists x. split; assumption.
  - destruct (get (w_solvers w) b); [|discriminate]. injection E as <-. left. destruct o as [j|]; [exact O|]. cbn [owns w_user] in *. apply in_remove in O. tauto.
Qed.
(** A command that may drop the solver of a handler. *)
Definition drops (c : hcmd) (i : nat) : Prop := match c with HAssign j _ | HSet j _ _ => j = i | _ => False end.
Lemma owner_kept w c w' o a : history w -> allowed w c -> hexec w c = Some w' -> owns w o a -> ~ frees w c a -> (forall i, o = Some i -> ~ drops c i) -> owns w' o a.
Proof.
  intros H A E O F D. destruct o as [k|].
  - destruct O as (h & Hk & S). destruct c as [|o0 m t kk|i|m|i j|i q ret|i f|i|b]; try (exists h; split; [|exact S]; rewrite <- Hk; eapply handlers_step; [exact E|unfold exists_handler; congruence|cbn [touches]; intros X; exact X]).
    + exists h. split; [|exact S]. rewrite <- Hk. eapply handlers_step; [exact E|unfold exists_handler; congruence|]. intros X. exact (D k eq_refl X).
    + exists h. split; [|exact S]. rewrite <- Hk. eapply handlers_step; [exact E|unfold exists_handler; congruence|]. intros X. exact (D k eq_refl X).
    + cbn [hexec] in E. destruct (get (w_handlers w) i) as [x|] eqn:Hi; [|discriminate]. injection E as <-. cbn [owns put_handler w_handlers]. rewrite get_upd by congruence. destruct (Nat.eqb_spec k i) as [->|N]; [|exists h; split; assumption]. assert (x = h) by congruence. subst x. eexists. split; [reflexivity|exact S].
    + exists h. split; [|exact S]. rewrite <- Hk. eapply handlers_step; [exact E|unfold exists_handler; congruence|]. intros X. cbn [touches] in X. subst i. apply F. exists h. split; assumption.
  - apply (handed_out_stays w c w' a H A E O). intros ->. apply F. reflexivity.
Qed.
Lemma freed_gone w c w' a : good w -> hexec w c = Some w' -> frees w c a -> ~ in_memory w' a.
Proof.
  intros G E F. unfold in_memory. destruct c as [|o0 m t k|i|m|i j|i q ret|i f|i|b]; try contradiction; cbn [frees] in F; cbn [hexec] in E.
  - destruct F as (h & Hi & S). rewrite Hi, S in E. destruct (get (w_solvers w) a) eqn:Q; [|discriminate]. injection E as <-. cbn [w_solvers]. rewrite get_upd, Nat.eqb_refl by congruence. congruence.
  - subst b. destruct (get (w_solvers w) a) eqn:Q; [|discriminate]. injection E as <-. cbn [w_solvers]. rewrite get_upd, Nat.eqb_refl by congruence. congruence.
Qed.
Lemma memory_new w c w' a : good w -> allowed w c -> hexec w c = Some w' -> in_memory w' a -> length (w_solvers w) <= a -> exists o, owns w' o a.
Proof.
  intros G A E M B. unfold in_memory in M. assert (N : get (w_solvers w) a = None) by (apply get_len; exact B).
  assert (X : forall q, get (w_solvers w ++ [Some q]) a <> None -> a = length (w_solvers w)). { intros q. rewrite get_app. destruct (Nat.eqb_spec a (length (w_solvers w))); [intros _; assumption|congruence]. }
  destruct c as [|o0 m t k|i|m|i j|i q ret|i f|i|b]; cbn [allowed] in A.
  - injection E as <-. contradiction.
  - injection E as <-. contradiction.
  - destruct A as (p & q & V). destruct (copy_result w i p q G V None) as (h & Hh & _ & _ & I). cbn [hexec] in E. rewrite Hh, I in E. injection E as <-. cbn [add_handler w_solvers] in M. apply X in M. subst a. exists (Some (length (w_handlers w))). eexists. cbn [add_handler w_handlers]. rewrite get_app, Nat.eqb_refl. split; reflexivity.
  - destruct m as [| |i]; [injection E as <-; contradiction|injection E as <-; contradiction|]. destruct A as (p & q & V). destruct (copy_result w i p q G V None) as (h & Hh & _ & _ & I). cbn [hexec] in E. rewrite Hh, I in E. injection E as <-. cbn [add_handler w_solvers] in M. apply X in M. subst a.
    exists (Some (length (w_handlers w))). eexists. cbn [add_handler w_handlers]. rewrite get_app, Nat.eqb_refl. split; reflexivity.
  - destruct A as (L & p & q & V). unfold exists_handler in L. cbn [hexec] in E. destruct (get (w_handlers w) i) as [this|] eqn:Hi; [|congruence]. destruct (copy_result w j p q G V (e_parent (e_plain this))) as (h & Hh & _ & _ & I). rewrite Hh, I in E. injection E as <-. cbn [put_handler w_solvers] in M. apply X in M. subst a.
    exists (Some i). eexists. cbn [put_handler w_handlers]. rewrite get_upd, Nat.eqb_refl by congruence. split; reflexivity.
  - cbn [hexec] in E. destruct (get (w_handlers w) i) as [h|] eqn:Hi; [|discriminate]. destruct (negb _); [discriminate|]. destruct (if ret then e_solver h else None) as [b|].
    + destruct (get (w_solvers w) b) as [old|]; [|discriminate]. injection E as <-. cbn [w_solvers] in M. rewrite get_app, app_length in M. cbn [length] in M. destruct (Nat.eqb_spec a (length (w_solvers w) + 1)) as [->|_].
      * exists (Some i). eexists. cbn [w_handlers]. rewrite get_upd, Nat.eqb_refl by congruence. split; [reflexivity|]. cbn [e_solver]. rewrite app_length. reflexivity.
      * apply X in M. subst a. exists None. left. reflexivity.
    + injection E as <-. cbn [w_solvers] in M. apply X in M. subst a. exists (Some i). eexists. cbn [w_handlers]. rewrite get_upd, Nat.eqb_refl by congruence. split; reflexivity.
  - cbn [hexec] in E. destruct (get (w_handlers w) i) as [h|]; [|discriminate]. injection E as <-. contradiction.
  - cbn [hexec] in E. destruct (get (w_handlers w) i) as [h|] eqn:Hi; [|discriminate]. destruct (e_solver h) as [b|]; [|injection E as <-; contradiction]. destruct (get (w_solvers w) b) eqn:Q; [|discriminate]. injection E as <-. cbn [w_solvers] in M. rewrite get_upd in M by congruence. destruct (Nat.eqb a b); contradiction.
  - cbn [hexec] in E. destruct (get (w_solvers w) b) eqn:Q; [|discriminate]. injection E as <-. cbn [w_solvers] in M. rewrite get_upd in M by congruence. destruct (Nat.eqb a b); contradiction.
Qed.
Lemma careful_history w : careful w -> history w.
Proof. intros C. induction C as [|w c w' C IH A D E]; [constructor|]. exact (hi_step w c w' IH A E). Qed.
(** In a careful program every solver in memory belongs to exactly one handler or was handed to the user; when all handlers are deleted and
    the user has deleted what was handed out, no solver is left. *)
Theorem released w : careful w ->
  (forall a, in_memory w a -> exists! o, owns w o a) /\
  ((forall i, ~ exists_handler w i) -> w_user w = [] -> forall a, ~ in_memory w a).
Proof.
  intros C. assert (X : forall a, in_memory w a -> exists o, owns w o a).
  { induction C as [|w c w' C IH A D E]; intros a M; [unfold in_memory in M; destruct a; contradiction|]. assert (H := careful_history w C). assert (G := history_good w H).
    destruct (Nat.lt_ge_cases a (length (w_solvers w))) as [B|B]; [|exact (memory_new w c w' a G A E M B)].
    assert (F : ~ frees w c a) by (intros F; exact (freed_gone w c w' a G E F M)). assert (M0 : in_memory w a). { unfold in_memory in *. rewrite (solvers_step w c w' a G E B F) in M. exact M. }
    destruct (IH a M0) as [o O]. exists o. apply (owner_kept w c w' o a H A E O F). intros i -> P.
    assert (S : has_solver w i). { apply (has_solver_iff w i G). destruct O as (h & Hi & S). destruct G as (L & _). destruct (L (Some i) a) as [q Q]; [exists h; split; assumption|]. exists h, a, q. repeat split; assumption. }
    destruct c as [|o0 m t k|j|m|j l|j q ret|j f|j|b]; cbn [drops] in P; try contradiction; cbn [careful_step] in D; subst j; contradiction. }
  split.
  - intros a M. destruct (X a M) as [o O]. exists o. split; [exact O|]. intros o' O'. destruct (history_good w (careful_history w C)) as (_ & U & _). exact (U o o' a O O').
  - intros NH NU a M. destruct (X a M) as [[i|] O]; [destruct O as (h & Hi & _); apply (NH i); unfold exists_handler; congruence|]. cbn [owns] in O. rewrite NU in O. exact O.
Qed.
Print Assumptions released.
(** Without care a solver is lost: giving a handler a second solver, or assigning to one that has a solver (also to itself), leaves the first
    in memory, and nobody can ever delete it. *)
Inductive later (w : world) : world -> Prop :=
| la_now : later w w
| la_step v c v' : later w v -> allowed v c -> hexec v c = Some v' -> later w v'.
Definition lost (w : world) (a : nat) : Prop := in_memory w a /\ forall o, ~ owns w o a.
Theorem second_solver_refuted w c w' i : history w -> allowed w c -> hexec w c = Some w' -> has_solver w i -> drops c i ->
  exists a, owns w (Some i) a /\ forall v, later w' v -> lost v a.
Proof.
  intros H A E S D. assert (G := history_good w H). apply (has_solver_iff w i G) in S. destruct S as (h & a & q & Hi & S & Q). assert (O : owns w (Some i) a) by (exists h; split; assumption). exists a. split; [exact O|].
  assert (B := owns_bound w (Some i) a G O). assert (H' : history w') by exact (hi_step w c w' H A E).
  assert (L0 : lost w' a).
  { split.
    - unfold in_memory. rewrite (solvers_step w c w' a G E B); [congruence|]. destruct c; cbn [drops] in D; try contradiction; intros [].
    - intros o O'. destruct (owner_new w c w' o a G E O') as [P|P]; [|lia]. destruct G as (_ & U & _). specialize (U _ _ _ O P). subst o. destruct O' as (x & Ex & Sx).
      destruct c as [|o0 m t k|j|m|j l|j r ret|j f|j|b]; cbn [drops] in D; try contradiction; subst j; cbn [hexec] in E; rewrite Hi in E.
      + destruct (get (w_handlers w) l) as [y|]; [|discriminate]. cbn [h_initialize] in E. unfold clone_solver in E. destruct (e_solver y) as [b|]; [|discriminate]. destruct (get (w_solvers w) b) as [r|]; [|discriminate]. injection E as <-. cbn [put_handler w_handlers] in Ex. rewrite get_upd, Nat.eqb_refl in Ex by congruence. injection Ex as <-. cbn [e_solver] in Sx. destruct (o_clp r); [injection Sx as Sx; lia|discriminate].
      + destruct (negb _); [discriminate|]. destruct (if ret then e_solver h else None) as [b|]; [destruct (get (w_solvers w) b) as [old|]; [|discriminate]|]; injection E as <-; cbn [w_handlers] in Ex; rewrite get_upd, Nat.eqb_refl in Ex by congruence; injection Ex as <-; cbn [e_solver] in Sx; injection Sx as Sx; try rewrite app_length in Sx; lia. }
  intros v Lv. assert (X : history v /\ lost v a); [|exact (proj2 X)]. induction Lv as [|v d v' Lv IH Av Ev]; [split; assumption|]. destruct IH as [Hv [M N]]. assert (Gv := history_good v Hv). split; [exact (hi_step v d v' Hv Av Ev)|].
  assert (Bv : a < length (w_solvers v)). { destruct (Nat.lt_ge_cases a (length (w_solvers v))); [assumption|]. unfold in_memory in M. rewrite get_len in M by lia. congruence. }
  split.
  - unfold in_memory. rewrite (solvers_step v d v' a Gv Ev Bv); [exact M|]. intros F. destruct d as [|o0 m t k|j|m|j l|j r ret|j f|j|b]; cbn [frees] in F; try exact F; [exact (N _ F)|]. subst b. exact (N None Av).
  - intros o O'. destruct (owner_new v d v' o a Gv Ev O') as [P|P]; [exact (N o P)|lia].
Qed.
Print Assumptions second_solver_refuted.
(** Copying a handler that was never given a solver is undefined (the solver is cloned through a null pointer): the copy constructor, clone,
    Cbc's passInEventHandler, the constructor with a model and assignment. *)
Theorem copy_of_new_refuted w i p : view w i = Some (p, None) -> history w ->
  hexec w (HCopy i) = None /\ hexec w (HFromModel (MOurs i)) = None /\ forall j, hexec w (HAssign j i) = None.
Proof.
  intros V H. destruct (history_good w H) as (L & _). unfold view in V. destruct (get (w_handlers w) i) as [h|] eqn:Hi; [|discriminate]. destruct (e_solver h) as [a|] eqn:S.
  - destruct (L (Some i) a) as [q Q]; [exists h; split; assumption|]. rewrite Q in V. discriminate.
  - cbn [hexec]. rewrite Hi. cbn [h_initialize]. unfold clone_solver. rewrite S. split; [reflexivity|]. split; [reflexivity|]. intros j. destruct (get (w_handlers w) j); reflexivity.
Qed.
Print Assumptions copy_of_new_refuted.
(** A solver of another class is not reported as an error but used through a null pointer. *)
Theorem other_class_refuted w i q r : o_clp q = false -> hexec w (HSet i q r) = None.
Proof. intros C. cbn [hexec]. rewrite C. destruct (get (w_handlers w) i); reflexivity. Qed.
Print Assumptions other_class_refuted.

(** ** The handlers of one partial tree *)
(** Generating a tree never goes wrong in any program.  At the end of the search Cbc's handler - a copy of the one made for the disjunction -
    is what the events made of the initial state: the disjunction, the limits, the solver's bounds and a copy of the solver; afterwards
    nothing of the two handlers or their solvers is left, and nothing else has changed. *)
Lemma edits_run w i h run : get (w_handlers w) i = Some h -> history w ->
  exists w', run_all w (map (HEdit i) run) = Some w' /\ history w' /\ w_solvers w' = w_solvers w /\ w_user w' = w_user w /\ length (w_handlers w') = length (w_handlers w) /\
    (forall j, get (w_handlers w') j = if Nat.eqb j i then Some {| e_plain := fold_left (fun p f => f p) run (e_plain h); e_solver := e_solver h |} else get (w_handlers w) j).
Proof.
  revert w h. induction run as [|f run IH]; intros w h Hi H.
  - exists w. split; [reflexivity|]. split; [exact H|]. repeat (split; [reflexivity|]). intros j. destruct (Nat.eqb_spec j i) as [->|_]; [rewrite Hi; destruct h; reflexivity|reflexivity].
  - cbn [map run_all fold_left]. assert (E : hexec w (HEdit i f) = Some (put_handler w (w_solvers w) i {| e_plain := f (e_plain h); e_solver := e_solver h |})) by (cbn [hexec]; rewrite Hi; reflexivity). rewrite E.
    set (w1 := put_handler w (w_solvers w) i {| e_plain := f (e_plain h); e_solver := e_solver h |}). assert (G1 : forall j, get (w_handlers w1) j = if Nat.eqb j i then Some {| e_plain := f (e_plain h); e_solver := e_solver h |} else get (w_handlers w) j) by (intros j; apply get_upd; congruence).
    destruct (IH w1 {| e_plain := f (e_plain h); e_solver := e_solver h |}) as (w' & R & H' & S & U & N & G').
    + rewrite G1, Nat.eqb_refl. reflexivity.
    + apply (hi_step w (HEdit i f) w1 H); [unfold allowed, exists_handler; congruence|exact E].
    + exists w'. split; [exact R|]. split; [exact H'|]. split; [exact S|]. split; [exact U|]. split; [rewrite N; apply upd_len|]. intros j. rewrite G', G1. cbn [e_plain e_solver]. destruct (Nat.eqb j i); reflexivity.
Qed.
Lemma run_app w cs ds : run_all w (cs ++ ds) = match run_all w cs with None => None | Some w' => run_all w' ds end.
Proof. revert w. induction cs as [|c cs IH]; intros w; [reflexivity|]. cbn [app run_all]. destruct (hexec w c); [apply IH|reflexivity]. Qed.
Theorem tree_handlers w owner m t keep q run : history w -> o_clp q = true ->
  let n := length (w_handlers w) in
  exists w1 w2, run_all w ([HNewFor owner m t keep; HSet n q false; HCopy n] ++ map (HEdit (S n)) run) = Some w1 /\
    run_all w (tree_commands n owner m t keep q run) = Some w2 /\ history w2 /\
    (exists p, view w1 (S n) = Some (fold_left (fun p f => f p) run p, Some q) /\ e_owner p = Some owner /\ e_max p = m /\ e_time p = t /\ e_keep p = keep /\
               e_lower p = o_lower q /\ e_upper p = o_upper q /\ e_stats p = [] /\ e_pruned p = [] /\ e_saved p = [] /\ e_end p = false /\ e_found p = false /\ e_leaf p = 0%Z) /\
    (forall i, view w2 i = view w i) /\ (forall a, get (w_solvers w2) a = get (w_solvers w) a) /\ w_user w2 = w_user w.
Proof.
  intros H C n. set (k := length (w_solvers w)).
  set (h0 := {| e_plain := plain_for owner m t keep; e_solver := None |}). set (p1 := with_bounds (plain_for owner m t keep) q).
  set (wa := add_handler w (w_solvers w) h0). assert (Ha : history wa) by exact (hi_step w (HNewFor owner m t keep) wa H Logic.I eq_refl).
  assert (Na : get (w_handlers wa) n = Some h0) by (cbn [wa add_handler w_handlers]; rewrite get_app, Nat.eqb_refl; reflexivity).
  set (wb := {| w_solvers := w_solvers w ++ [Some q]; w_handlers := upd (w_handlers wa) n (Some {| e_plain := p1; e_solver := Some k |}); w_user := w_user w |}).
  assert (Eb : hexec wa (HSet n q false) = Some wb) by (cbn [hexec]; rewrite Na, C; reflexivity).
  assert (Hb : history wb). { apply (hi_step wa (HSet n q false) wb Ha); [|exact Eb]. split; [unfold exists_handler; congruence|exact C]. }
  assert (Nb : forall j, get (w_handlers wb) j = if Nat.eqb j n then Some {| e_plain := p1; e_solver := Some k |} else get (w_handlers w) j).
  { intros j. cbn [wb w_handlers]. rewrite get_upd by congruence. destruct (Nat.eqb_spec j n) as [_|D]; [reflexivity|]. cbn [wa add_handler w_handlers]. rewrite get_app. destruct (Nat.eqb_spec j (length (w_handlers w))); [contradiction|reflexivity]. }
  assert (Vb : view wb n = Some (p1, Some q)). { unfold view. rewrite Nb, Nat.eqb_refl. cbn [e_solver e_plain wb w_solvers]. unfold k. rewrite get_app, Nat.eqb_refl. reflexivity. }
  destruct (copy_result wb n p1 q (history_good wb Hb) Vb None) as (h & Hh & _ & _ & I). assert (Lb : length (w_solvers wb) = S k) by (cbn [wb w_solvers]; rewrite app_length; cbn [length]; unfold k; lia). rewrite Lb in I.
  assert (Lh : length (w_handlers wb) = S n) by (cbn [wb w_handlers]; rewrite upd_len; cbn [wa add_handler w_handlers]; rewrite app_length; cbn [length]; unfold n; lia).
  set (h1 := {| e_plain := with_parent None p1; e_solver := Some (S k) |}) in *. set (wc := add_handler wb (w_solvers wb ++ [Some q]) h1).
  assert (Ec : hexec wb (HCopy n) = Some wc) by (cbn [hexec]; rewrite Hh, I; reflexivity).
  assert (Hc : history wc). { apply (hi_step wb (HCopy n) wc Hb); [|exact Ec]. exists p1, q. exact Vb. }
  assert (Nc : forall j, get (w_handlers wc) j = if Nat.eqb j (S n) then Some h1 else get (w_handlers wb) j) by (intros j; cbn [wc add_handler w_handlers]; rewrite get_app, Lh; reflexivity).
  destruct (edits_run wc (S n) h1 run) as (wd & Rd & Hd & Sd & Ud & Ld & Nd); [rewrite Nc, Nat.eqb_refl; reflexivity|exact Hc|].
  assert (Sv : forall a, get (w_solvers wd) a = if Nat.eqb a (S k) then Some q else if Nat.eqb a k then Some q else get (w_solvers w) a).
  { intros a. rewrite Sd. cbn [wc add_handler w_solvers]. rewrite get_app, Lb. destruct (Nat.eqb a (S k)); [reflexivity|]. cbn [wb w_solvers]. rewrite get_app. reflexivity. }
  assert (Nn : get (w_handlers wd) n = Some {| e_plain := p1; e_solver := Some k |}) by (rewrite Nd; destruct (Nat.eqb_spec n (S n)); [lia|]; rewrite Nc; destruct (Nat.eqb_spec n (S n)); [lia|]; rewrite Nb, Nat.eqb_refl; reflexivity).
  assert (NS : get (w_handlers wd) (S n) = Some {| e_plain := fold_left (fun p f => f p) run (with_parent None p1); e_solver := Some (S k) |}) by (rewrite Nd, Nat.eqb_refl; reflexivity).
  set (we := {| w_solvers := upd (w_solvers wd) k None; w_handlers := upd (w_handlers wd) n None; w_user := w_user wd |}).
  assert (Kk : get (w_solvers wd) k = Some q) by (rewrite Sv; destruct (Nat.eqb_spec k (S k)); [reflexivity|]; rewrite Nat.eqb_refl; reflexivity).
  assert (Ee : hexec wd (HDestroy n) = Some we) by (cbn [hexec]; rewrite Nn; cbn [e_solver]; rewrite Kk; reflexivity).
  assert (He : history we). { apply (hi_step wd (HDestroy n) we Hd); [unfold allowed, exists_handler; congruence|exact Ee]. }
  assert (Ne : get (w_handlers we) (S n) = Some {| e_plain := fold_left (fun p f => f p) run (with_parent None p1); e_solver := Some (S k) |}) by (cbn [we w_handlers]; rewrite get_upd by congruence; destruct (Nat.eqb_spec (S n) n); [lia|exact NS]).
  assert (Ke : get (w_solvers we) (S k) = Some q) by (cbn [we w_solvers]; rewrite get_upd by congruence; destruct (Nat.eqb_spec (S k) k); [lia|]; rewrite Sv, Nat.eqb_refl; reflexivity).
  set (wf := {| w_solvers := upd (w_solvers we) (S k) None; w_handlers := upd (w_handlers we) (S n) None; w_user := w_user we |}).
  assert (Ef : hexec we (HDestroy (S n)) = Some wf) by (cbn [hexec]; rewrite Ne; cbn [e_solver]; rewrite Ke; reflexivity).
  assert (Hf : history wf). { apply (hi_step we (HDestroy (S n)) wf He); [unfold allowed, exists_handler; congruence|exact Ef]. }
  assert (R1 : run_all w ([HNewFor owner m t keep; HSet n q false; HCopy n] ++ map (HEdit (S n)) run) = Some wd). { assert (Ea : hexec w (HNewFor owner m t keep) = Some wa) by reflexivity. rewrite run_app. cbn [run_all]. rewrite Ea. cbv beta iota. rewrite Eb. cbv beta iota. rewrite Ec. exact Rd. }
  assert (SF : forall a, get (w_solvers wf) a = get (w_solvers w) a).
  { intros a. cbn [wf w_solvers]. rewrite get_upd by congruence. destruct (Nat.eqb_spec a (S k)) as [->|D1]; [symmetry; apply get_len; unfold k; lia|]. cbn [we w_solvers]. rewrite get_upd by congruence. destruct (Nat.eqb_spec a k) as [->|D2]; [symmetry; apply get_len; unfold k; lia|].
    rewrite Sv. destruct (Nat.eqb_spec a (S k)); [contradiction|]. destruct (Nat.eqb_spec a k); [contradiction|reflexivity]. }
  assert (HF : forall i, get (w_handlers wf) i = get (w_handlers w) i).
  { intros i. cbn [wf w_handlers]. rewrite get_upd by congruence. destruct (Nat.eqb_spec i (S n)) as [->|D1]; [symmetry; apply get_len; unfold n; lia|]. cbn [we w_handlers]. rewrite get_upd by congruence. destruct (Nat.eqb_spec i n) as [->|D2]; [symmetry; apply get_len; unfold n; lia|].
    rewrite Nd. destruct (Nat.eqb_spec i (S n)); [contradiction|]. rewrite Nc. destruct (Nat.eqb_spec i (S n)); [contradiction|]. rewrite Nb. destruct (Nat.eqb_spec i n); [contradiction|reflexivity]. }
  exists wd, wf. split; [exact R1|]. split; [|split; [exact Hf|split; [|split; [|split; [exact SF|]]]]].
  - unfold tree_commands. rewrite app_assoc, run_app, R1. cbn [run_all]. rewrite Ee, Ef. reflexivity.
  - exists (with_parent None p1). split; [|repeat split]. unfold view. rewrite NS. cbn [e_solver e_plain]. rewrite Sv, Nat.eqb_refl. reflexivity.
  - intros i. unfold view. rewrite HF. destruct (get (w_handlers w) i) as [x|]; [|reflexivity]. destruct (e_solver x); [rewrite SF; reflexivity|reflexivity].
  - cbn [wf w_user we]. exact Ud.
Qed.
Print Assumptions tree_handlers.

(** ** The point-ray LP *)
(** A copy, clone or assignment target takes over the counts of rows and objectives but not the LP itself: a clone of a point-ray LP with
    rows has none, an assigned one keeps its own rows. *)
Theorem prlp_copy_refuted s t : Z.of_nat (length (l_rows s)) = (l_points (l_mem s) + l_rays (l_mem s))%Z -> l_rows s <> [] ->
  (l_points (l_mem (prlp_copy s)) + l_rays (l_mem (prlp_copy s)) <> Z.of_nat (length (l_rows (prlp_copy s))))%Z /\ l_mem (prlp_copy s) = l_mem s /\ l_rows (prlp_copy s) <> l_rows s /\
  (length (l_rows t) <> length (l_rows s) -> (l_points (l_mem (prlp_assign t s)) + l_rays (l_mem (prlp_assign t s)) <> Z.of_nat (length (l_rows (prlp_assign t s))))%Z).
Proof.
  intros E N. split; [|split; [reflexivity|split]].
  - cbn [prlp_copy l_mem l_rows length]. destruct (l_rows s); [congruence|]. cbn [length] in E. lia.
  - cbn [prlp_copy l_rows]. congruence.
  - intros D. cbn [prlp_assign l_mem l_rows]. lia.
Qed.
Print Assumptions prlp_copy_refuted.

(** ** Instances *)
Definition ex_q : solver := {| o_clp := true; o_lower := [0; 0]%Q; o_upper := [1; 3]%Q; o_rest := [7%Z] |}.
Definition ex_q2 : solver := {| o_clp := true; o_lower := [0; 1]%Q; o_upper := [1; 2]%Q; o_rest := [] |}.
Definition ex_cmds : list hcmd := [HNewFor 5 8 60 true; HSet 0 ex_q false; HCopy 0; HEdit 1 (set_bounds [0; 1]%Q [1; 3]%Q); HSet 0 ex_q2 true].
Definition ex_w : world := match run_all world0 ex_cmds with Some w => w | None => world0 end.
Example ex_careful : careful (match run_all world0 (firstn 4 ex_cmds) with Some w => w | None => world0 end).
Proof.
  assert (S1 : careful (match run_all world0 (firstn 1 ex_cmds) with Some w => w | None => world0 end)) by (eapply (ca_step _ (HNewFor 5 8 60 true)); [exact ca_start|exact Logic.I|exact Logic.I|reflexivity]).
  assert (S2 : careful (match run_all world0 (firstn 2 ex_cmds) with Some w => w | None => world0 end)).
  { eapply (ca_step _ (HSet 0 ex_q false)); [exact S1|split; [discriminate|reflexivity]| |reflexivity]. intros (p & q & V). discriminate V. }
  assert (S3 : careful (match run_all world0 (firstn 3 ex_cmds) with Some w => w | None => world0 end)).
  { eapply (ca_step _ (HCopy 0)); [exact S2| |exact Logic.I|reflexivity]. eexists _, _. reflexivity. }
  eapply (ca_step _ (HEdit 1 (set_bounds [0; 1]%Q [1; 3]%Q))); [exact S3|discriminate|exact Logic.I|reflexivity].
Qed.
(** The same handler given a second solver: the copy is unchanged, the caller has a copy of the first, and the first is lost. *)
Example ex_second : history ex_w /\ (exists p, view ex_w 0 = Some (p, Some ex_q2)) /\ (exists p, view ex_w 1 = Some (p, Some ex_q) /\ e_lower p = [0; 1]%Q) /\ w_user ex_w = [2] /\ get (w_solvers ex_w) 2 = Some ex_q /\ lost ex_w 0.
Proof.
  split.
  - apply (hi_step (match run_all world0 (firstn 4 ex_cmds) with Some w => w | None => world0 end) (HSet 0 ex_q2 true)); [exact (careful_history _ ex_careful)|split; [discriminate|reflexivity]|reflexivity].
  - split; [eexists; reflexivity|]. split; [eexists; split; reflexivity|]. split; [reflexivity|]. split; [reflexivity|]. split; [discriminate|]. intros [i|].
    + intros (h & E & S). destruct i as [|[|i]]; [injection E as <-; discriminate|injection E as <-; discriminate|destruct i; discriminate].
    + cbn. intros [E|[]]. discriminate.
Qed.
Example ex_prlp : exists s, Z.of_nat (length (l_rows s)) = (l_points (l_mem s) + l_rays (l_mem s))%Z /\ l_rows s <> [].
Proof. exists {| l_mem := {| l_points := 1; l_rays := 1; l_ortho := []; l_tried := 0; l_cuts := 0; l_failures := 0; l_rest := [] |}; l_rows := [([1; 0], 1); ([0; 1], 0)]%Q; l_objective := [1; 1]%Q |}. split; [reflexivity|discriminate]. Qed.
