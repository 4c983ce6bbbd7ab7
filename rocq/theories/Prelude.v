(** Shared vocabulary: exact rationals standing for the C++ doubles, finite sums,
    packed (sparse) vectors.  Nothing here models repository code; these are the
    mathematical notions the specifications are written in. *)
From Coq Require Export QArith Qabs Qround Lqa Lia ZArith Bool Arith List.
Export ListNotations.
#[global] Open Scope Q_scope.

(** Boolean strict comparison on rationals. *)
Definition Qltb (a b : Q) : bool := negb (Qle_bool b a).

Lemma Qltb_lt a b : Qltb a b = true <-> a < b.
Proof.
  unfold Qltb. rewrite negb_true_iff. split; intro H.
  - apply Qnot_le_lt. intro C. apply Qle_bool_iff in C. congruence.
  - destruct (Qle_bool b a) eqn:E; [|reflexivity].
    apply Qle_bool_iff in E. exfalso. lra.
Qed.

Lemma Qltb_ge a b : Qltb a b = false <-> b <= a.
Proof.
  unfold Qltb. rewrite negb_false_iff. apply Qle_bool_iff.
Qed.

Lemma Qle_bool_le a b : Qle_bool a b = true <-> a <= b.
Proof. apply Qle_bool_iff. Qed.

Lemma Qle_bool_gt a b : Qle_bool a b = false <-> b < a.
Proof.
  split; intro H.
  - apply Qnot_le_lt. intro C. apply Qle_bool_iff in C. congruence.
  - destruct (Qle_bool a b) eqn:E; [|reflexivity].
    apply Qle_bool_iff in E. exfalso. lra.
Qed.

Lemma Qltb_reflect a b : reflect (a < b) (Qltb a b).
Proof. apply iff_reflect. symmetry. apply Qltb_lt. Qed.
Lemma Qle_bool_reflect a b : reflect (a <= b) (Qle_bool a b).
Proof. apply iff_reflect. symmetry. apply Qle_bool_iff. Qed.
Lemma Qeq_bool_reflect a b : reflect (a == b) (Qeq_bool a b).
Proof. apply iff_reflect. symmetry. apply Qeq_bool_iff. Qed.

#[global] Instance Qltb_comp : Proper (Qeq ==> Qeq ==> eq) Qltb.
Proof. intros a b H c d H'. unfold Qltb. rewrite H, H'. reflexivity. Qed.

(** [qcase] case-splits one boolean rational comparison of the goal. *)
Ltac qcase1 :=
  match goal with
  | |- context [Qltb ?a ?b] => destruct (Qltb_reflect a b)
  | |- context [Qle_bool ?a ?b] => destruct (Qle_bool_reflect a b)
  | |- context [Qeq_bool ?a ?b] => destruct (Qeq_bool_reflect a b)
  end.
(** [qspec H] turns boolean comparisons in hypotheses into propositions. *)
Ltac qhyps :=
  repeat match goal with
  | H : Qltb _ _ = true |- _ => apply Qltb_lt in H
  | H : Qltb _ _ = false |- _ => apply Qltb_ge in H
  | H : Qle_bool _ _ = true |- _ => apply Qle_bool_le in H
  | H : Qle_bool _ _ = false |- _ => apply Qle_bool_gt in H
  | H : Qeq_bool _ _ = true |- _ => apply Qeq_bool_iff in H
  | H : Qeq_bool _ _ = false |- _ => apply Qeq_bool_neq in H
  | H : _ && _ = true |- _ => apply andb_true_iff in H; destruct H
  | H : _ || _ = false |- _ => apply orb_false_iff in H; destruct H
  | H : negb _ = true |- _ => apply negb_true_iff in H
  | H : negb _ = false |- _ => apply negb_false_iff in H
  end.

Lemma Qabs_cases a : (0 <= a /\ Qabs a == a) \/ (a < 0 /\ Qabs a == - a).
Proof.
  destruct (Qlt_le_dec a 0) as [H|H].
  - right. split; [exact H|]. apply Qabs_neg. lra.
  - left. split; [exact H|]. apply Qabs_pos. exact H.
Qed.

Ltac qabs :=
  repeat match goal with
  | H : context [Qabs ?a] |- _ =>
      let H1 := fresh "Habs" in let H2 := fresh "Habs" in
      destruct (Qabs_cases a) as [[H1 H2]|[H1 H2]]; rewrite H2 in *; clear H2
  | |- context [Qabs ?a] =>
      let H1 := fresh "Habs" in let H2 := fresh "Habs" in
      destruct (Qabs_cases a) as [[H1 H2]|[H1 H2]]; rewrite H2 in *; clear H2
  end.

(** ** Finite sums *)
Fixpoint Qsum (l : list Q) : Q :=
  match l with [] => 0 | x :: r => x + Qsum r end.

Definition Qsumf {A} (f : A -> Q) (l : list A) : Q := Qsum (map f l).

Lemma Qsum_app l1 l2 : Qsum (l1 ++ l2) == Qsum l1 + Qsum l2.
Proof. induction l1 as [|x l IH]; cbn [Qsum app]; [ring|]. rewrite IH. ring. Qed.

Lemma Qsumf_app {A} (f : A -> Q) l1 l2 : Qsumf f (l1 ++ l2) == Qsumf f l1 + Qsumf f l2.
Proof. unfold Qsumf. rewrite map_app. apply Qsum_app. Qed.

Lemma Qsumf_cons {A} (f : A -> Q) x l : Qsumf f (x :: l) = f x + Qsumf f l.
Proof. reflexivity. Qed.

Lemma Qsumf_nil {A} (f : A -> Q) : Qsumf f [] = 0.
Proof. reflexivity. Qed.

Lemma Qsumf_ext {A} (f g : A -> Q) l :
  (forall x, In x l -> f x == g x) -> Qsumf f l == Qsumf g l.
Proof.
  induction l as [|x l IH]; intro H; [reflexivity|].
  rewrite !Qsumf_cons, (H x (or_introl eq_refl)), IH; [reflexivity|].
  intros y Hy. apply H. right. exact Hy.
Qed.

Lemma Qsumf_plus {A} (f g : A -> Q) l :
  Qsumf (fun x => f x + g x) l == Qsumf f l + Qsumf g l.
Proof. induction l as [|x l IH]; [cbn; ring|]. rewrite !Qsumf_cons, IH. ring. Qed.

Lemma Qsumf_scale {A} (c : Q) (f : A -> Q) l :
  Qsumf (fun x => c * f x) l == c * Qsumf f l.
Proof. induction l as [|x l IH]; [cbn; ring|]. rewrite !Qsumf_cons, IH. ring. Qed.

Lemma Qsumf_zero {A} (l : list A) : Qsumf (fun _ => 0) l == 0.
Proof. induction l as [|x l IH]; [cbn; ring|]. rewrite Qsumf_cons, IH. ring. Qed.

Lemma Qsumf_nonneg {A} (f : A -> Q) l :
  (forall x, In x l -> 0 <= f x) -> 0 <= Qsumf f l.
Proof.
  induction l as [|x l IH]; intro H; [cbn; lra|].
  rewrite Qsumf_cons.
  pose proof (H x (or_introl eq_refl)) as H1.
  assert (0 <= Qsumf f l) by (apply IH; intros y Hy; apply H; right; exact Hy).
  lra.
Qed.

Lemma Qsumf_le {A} (f g : A -> Q) l :
  (forall x, In x l -> f x <= g x) -> Qsumf f l <= Qsumf g l.
Proof.
  induction l as [|x l IH]; intro H; [cbn; lra|].
  rewrite !Qsumf_cons.
  pose proof (H x (or_introl eq_refl)) as H1.
  assert (Qsumf f l <= Qsumf g l) by (apply IH; intros y Hy; apply H; right; exact Hy).
  lra.
Qed.

Lemma Qsumf_map {A B} (f : B -> Q) (g : A -> B) l :
  Qsumf f (map g l) = Qsumf (fun x => f (g x)) l.
Proof. unfold Qsumf. rewrite map_map. reflexivity. Qed.

Lemma Qsumf_swap {A B} (f : A -> B -> Q) la lb :
  Qsumf (fun a => Qsumf (f a) lb) la == Qsumf (fun b => Qsumf (fun a => f a b) la) lb.
Proof.
  induction la as [|a la IH].
  - cbn. symmetry. apply Qsumf_zero.
  - rewrite Qsumf_cons, IH.
    rewrite <- Qsumf_plus. apply Qsumf_ext. intros b _. rewrite Qsumf_cons. reflexivity.
Qed.

(** ** Packed vectors (CoinPackedVector): list of (index, value) pairs. *)
Definition packed := list (nat * Q).

(** Value of a packed vector at an index (entries with the same index add up). *)
Definition pval (v : packed) (i : nat) : Q :=
  Qsumf (fun e => if Nat.eqb (fst e) i then snd e else 0) v.

(** Mathematical dot product of a packed vector with a point. *)
Definition pdot (v : packed) (x : nat -> Q) : Q :=
  Qsumf (fun e => snd e * x (fst e)) v.

(** Strictly increasing indices (a "sorted" CoinPackedVector without duplicates). *)
Fixpoint psorted_from (lo : nat) (v : packed) : Prop :=
  match v with
  | [] => True
  | e :: r => (lo <= fst e)%nat /\ psorted_from (S (fst e)) r
  end.
Definition psorted (v : packed) : Prop := psorted_from 0 v.

Lemma psorted_from_weaken lo lo' v :
  (lo' <= lo)%nat -> psorted_from lo v -> psorted_from lo' v.
Proof. destruct v as [|e r]; cbn; [trivial|]. intros H [H1 H2]. split; [lia|exact H2]. Qed.

Lemma pval_nil i : pval [] i = 0.
Proof. reflexivity. Qed.
Lemma pval_cons e v i : pval (e :: v) i = (if Nat.eqb (fst e) i then snd e else 0) + pval v i.
Proof. reflexivity. Qed.
Lemma pval_app v w i : pval (v ++ w) i == pval v i + pval w i.
Proof. unfold pval. apply Qsumf_app. Qed.

Lemma pval_below lo v i : psorted_from lo v -> (i < lo)%nat -> pval v i == 0.
Proof.
  revert lo. induction v as [|e v IH]; intros lo H Hi; [reflexivity|].
  destruct H as [H1 H2]. rewrite pval_cons.
  destruct (Nat.eqb_spec (fst e) i) as [E|E]; [lia|].
  rewrite (IH _ H2) by lia. ring.
Qed.

Lemma pdot_cons e v x : pdot (e :: v) x = snd e * x (fst e) + pdot v x.
Proof. reflexivity. Qed.
Lemma pdot_nil x : pdot [] x = 0.
Proof. reflexivity. Qed.
Lemma pdot_app v w x : pdot (v ++ w) x == pdot v x + pdot w x.
Proof. unfold pdot. apply Qsumf_app. Qed.
Lemma pdot_ext v x y : (forall i, x i == y i) -> pdot v x == pdot v y.
Proof. intro H. apply Qsumf_ext. intros e _. rewrite H. reflexivity. Qed.

Lemma pdot_below lo v x y :
  psorted_from lo v -> (forall i, (lo <= i)%nat -> x i == y i) -> pdot v x == pdot v y.
Proof.
  revert lo. induction v as [|e v IH]; intros lo H Hxy; [reflexivity|].
  destruct H as [H1 H2]. rewrite !pdot_cons, (Hxy (fst e)) by lia.
  rewrite (IH _ H2); [reflexivity|]. intros i Hi. apply Hxy. lia.
Qed.
