(** Lemmas about the solver wrappers. *)
From Verif Require Import Prelude Model.LP Model.SolverHelper Spec.LPSpec Spec.SolverSpec Proofs.ToleranceP.

Lemma upd_same {A} (f : nat -> A) j v : upd f j v j = v.
Proof. unfold upd. rewrite Nat.eqb_refl. reflexivity. Qed.
Lemma upd_other {A} (f : nat -> A) j v i : i <> j -> upd f j v i = f i.
Proof. unfold upd. intro H. destruct (Nat.eqb_spec i j); [contradiction|reflexivity]. Qed.

(** A loop over a range of columns that rewrites each coefficient from its own old value. *)
Lemma range_loop (g : Q -> Q) n : forall a c j,
  fold_left (fun c i => upd c i (g (c i))) (seq a n) c j =
  (if Nat.leb a j && Nat.ltb j (a + n) then g (c j) else c j).
Proof.
  induction n as [|n IH]; intros a c j; cbn [seq fold_left].
  - destruct (Nat.leb_spec a j), (Nat.ltb_spec j (a + 0)); cbn [andb]; try lia; reflexivity.
  - rewrite IH. destruct (Nat.eq_dec j a) as [->|N].
    + rewrite upd_same. destruct (Nat.leb_spec (S a) a), (Nat.leb_spec a a), (Nat.ltb_spec a (a + S n)); cbn [andb]; try lia; reflexivity.
    + rewrite upd_other by exact N. destruct (Nat.leb_spec (S a) j), (Nat.leb_spec a j), (Nat.ltb_spec j (S a + n)), (Nat.ltb_spec j (a + S n));
        cbn [andb]; try lia; reflexivity.
Qed.
Lemma negate_obj_at n c j : negate_obj n c j = if Nat.ltb j n then -(1) * c j else c j.
Proof. unfold negate_obj. rewrite (range_loop (fun v => -(1) * v) n 0 c j). cbn [Nat.leb andb Nat.add]. reflexivity. Qed.
Lemma zero_obj_at n c j : zero_obj n c j = if Nat.ltb j n then 0 else c j.
Proof. unfold zero_obj. rewrite (range_loop (fun _ => 0) n 0 c j). reflexivity. Qed.

Lemma feasible_set_obj P c x : feasible (set_obj P c) x <-> feasible P x.
Proof. reflexivity. Qed.

Lemma flip_value s P x : obj_value (flip_to s P) x == - obj_value P x.
Proof.
  unfold obj_value, flip_to. cbn [os_lp os_off set_obj obj ncols].
  assert (E : Qsumf (fun j => negate_obj (ncols (os_lp P)) (obj (os_lp P)) j * x j) (seq 0 (ncols (os_lp P))) ==
              - Qsumf (fun j => obj (os_lp P) j * x j) (seq 0 (ncols (os_lp P)))).
  { transitivity (Qsumf (fun j => -(1) * (obj (os_lp P) j * x j)) (seq 0 (ncols (os_lp P)))).
    - apply Qsumf_ext. intros j Hj. apply in_seq in Hj. rewrite negate_obj_at.
      destruct (Nat.ltb_spec j (ncols (os_lp P))); [ring|lia].
    - rewrite Qsumf_scale. ring. }
  rewrite E. destruct (Qeq_bool (os_off P) 0) eqn:Z; [apply Qeq_bool_iff in Z; rewrite Z|]; ring.
Qed.
Lemma flip_same s P : same_solutions P (flip_to s P).
Proof. split; [reflexivity|]. split; intro x; [apply feasible_set_obj|reflexivity]. Qed.
Lemma same_refl P : same_solutions P P.
Proof. split; [reflexivity|]. split; intro; reflexivity. Qed.
