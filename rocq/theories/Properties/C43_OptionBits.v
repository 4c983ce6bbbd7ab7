(** C43: option bits behave like a finite set of options. *)
From Verif Require Import Prelude Model.Parameters Spec.ParamSpec.
#[local] Open Scope Z_scope.

(** Each option other than NONE / off is one bit. *)
Lemma temp_bit o : o = NONE \/ exists n, 0 <= n < 31 /\ temp_value o = 2 ^ n.
Proof. destruct o; [left; reflexivity|..]; right;
  [exists 3|exists 4|exists 5|exists 10|exists 11|exists 12|exists 14|exists 15]; split; (lia || reflexivity). Qed.
Lemma bb_bit o : o = off \/ exists n, 0 <= n < 31 /\ bb_value o = 2 ^ n.
Proof. destruct o; [left; reflexivity|..]; right;
  [exists 1|exists 2|exists 3|exists 4|exists 5|exists 6|exists 7|exists 8|exists 9|exists 10|exists 11|exists 12|exists 13|exists 14];
  split; (lia || reflexivity). Qed.
Lemma temp_inj a b : temp_value a = temp_value b -> a = b. Proof. destruct a, b; cbn; congruence. Qed.
Lemma bb_inj a b : bb_value a = bb_value b -> a = b. Proof. destruct a, b; cbn; congruence. Qed.

Lemma land_pow2 s n : 0 <= n -> negb (Z.land s (2 ^ n) =? 0) = Z.testbit s n.
Proof.
  intro H. destruct (Z.testbit s n) eqn:E.
  - apply negb_true_iff, Z.eqb_neq. intro C. assert (T : Z.testbit (Z.land s (2 ^ n)) n = true).
    { rewrite Z.land_spec, E, Z.pow2_bits_true by exact H. reflexivity. }
    rewrite C, Z.bits_0 in T. discriminate.
  - apply negb_false_iff, Z.eqb_eq. apply Z.bits_inj'. intros m Hm. rewrite Z.land_spec, Z.bits_0.
    destruct (Z.eq_dec n m) as [<-|N]; [rewrite E; reflexivity|]. rewrite Z.pow2_bits_false by lia. apply andb_false_r.
Qed.
Lemma is_int_shift z : is_int z <-> Z.shiftr z 31 = 0 \/ Z.shiftr z 31 = -1.
Proof.
  rewrite Z.shiftr_div_pow2 by lia. change (2 ^ 31) with 2147483648. unfold is_int.
  pose proof (Z.div_mod z 2147483648 ltac:(lia)) as D. pose proof (Z.mod_pos_bound z 2147483648 ltac:(lia)) as B.
  set (q := z / 2147483648) in *. set (r := z mod 2147483648) in *. clearbody q r. lia.
Qed.
Lemma shift_small v : 0 <= v < 2 ^ 31 -> Z.shiftr v 31 = 0.
Proof. intro H. rewrite Z.shiftr_div_pow2 by lia. apply Z.div_small, H. Qed.
Lemma shiftr_lnot v n : 0 <= n -> Z.shiftr (Z.lnot v) n = Z.lnot (Z.shiftr v n).
Proof. intro H. apply Z.bits_inj'. intros m Hm. rewrite Z.shiftr_spec, !Z.lnot_spec, Z.shiftr_spec by lia. reflexivity. Qed.

Section Bits.
  (** One proof for both families of options: [none] is the empty option, the others single bits. *)
  Context {O : Type} (value : O -> Z) (none : O).
  Hypothesis none0 : value none = 0.
  Hypothesis bit : forall o, o = none \/ exists n, 0 <= n < 31 /\ value o = 2 ^ n.
  Hypothesis inj : forall a b, value a = value b -> a = b.
  Let use s o := negb (Z.land s (value o) =? 0).
  Lemma use_none s : use s none = false.
  Proof. unfold use. rewrite none0, Z.land_0_r. reflexivity. Qed.
  Lemma use_testbit s o n : 0 <= n -> value o = 2 ^ n -> use s o = Z.testbit s n.
  Proof. intros H E. unfold use. rewrite E. apply land_pow2, H. Qed.
  Lemma use_enable s o o' : use (Z.lor s (value o)) o' = true <-> use s o' = true \/ (o' = o /\ o <> none).
  Proof.
    destruct (bit o') as [->|(n & Hn & En)].
    - rewrite !use_none. split; [discriminate|]. intros [H|[<- H]]; [discriminate|congruence].
    - rewrite !(use_testbit _ o' n) by (lia || exact En). rewrite Z.lor_spec, orb_true_iff.
      destruct (bit o) as [->|(m & Hm & Em)].
      + rewrite none0, Z.bits_0. split; intros [H|H]; try (left; exact H); [discriminate|destruct H; congruence].
      + rewrite Em. split; (intros [H|H]; [left; exact H|right]).
        * destruct (Z.eq_dec m n) as [->|N]; [|rewrite Z.pow2_bits_false in H by lia; discriminate].
          split; [apply inj; congruence|]. intros ->. rewrite none0 in Em. pose proof (Z.pow_pos_nonneg 2 n ltac:(lia) ltac:(lia)). lia.
        * destruct H as [-> _]. rewrite Em in En. apply Z.pow_inj_r in En; [|lia..]. subst m. apply Z.pow2_bits_true. lia.
  Qed.
  Lemma use_disable s o o' : use (Z.land s (Z.lnot (value o))) o' = true <-> use s o' = true /\ o' <> o.
  Proof.
    destruct (bit o') as [->|(n & Hn & En)].
    - rewrite !use_none. split; [discriminate|intros [H _]; exact H].
    - rewrite !(use_testbit _ o' n) by (lia || exact En). rewrite Z.land_spec, Z.lnot_spec, andb_true_iff, negb_true_iff by lia.
      destruct (bit o) as [->|(m & Hm & Em)].
      + rewrite none0, Z.bits_0. split; [intros [H _]; split; [exact H|]|intros [H _]; split; [exact H|reflexivity]].
        intros ->. rewrite none0 in En. pose proof (Z.pow_pos_nonneg 2 n ltac:(lia) ltac:(lia)). lia.
      + rewrite Em. split; intros [H1 H2]; (split; [exact H1|]).
        * intros ->. rewrite Em in En. apply Z.pow_inj_r in En; [|lia..]. subst m. rewrite Z.pow2_bits_true in H2 by lia. discriminate.
        * apply Z.pow2_bits_false. intros ->. apply H2, inj. congruence.
  Qed.
  Lemma range_keep s o : is_int s -> is_int (Z.lor s (value o)) /\ is_int (Z.land s (Z.lnot (value o))).
  Proof.
    intro H. assert (V : Z.shiftr (value o) 31 = 0).
    { apply shift_small. destruct (bit o) as [->|(n & Hn & ->)]; [rewrite none0; lia|].
      split; [apply Z.pow_nonneg; lia|apply Z.pow_lt_mono_r; lia]. }
    rewrite !is_int_shift in *. rewrite Z.shiftr_lor, Z.shiftr_land, shiftr_lnot, V by lia.
    change (Z.lnot 0) with (-1). rewrite Z.lor_0_r, Z.land_m1_r. auto.
  Qed.
  Lemma sum_members l : NoDup l -> forall o, use (fold_left (fun v o => v + value o) l 0) o = true <-> In o l /\ o <> none.
  Proof.
    intro N. assert (G : forall l acc, NoDup l -> (forall o, In o l -> use acc o = false) ->
       forall o, use (fold_left (fun v o => v + value o) l acc) o = true <-> use acc o = true \/ (In o l /\ o <> none)).
    { clear l N. induction l as [|a l IH]; intros acc N D o; cbn [fold_left].
      - split; [auto|intros [H|[[] _]]; exact H].
      - apply NoDup_cons_iff in N. destruct N as [Na N].
        assert (Da : use acc a = false) by (apply D; left; reflexivity).
        assert (E : acc + value a = Z.lor acc (value a)).
        { unfold use in Da. apply negb_false_iff, Z.eqb_eq in Da. rewrite <- Z.lxor_lor by exact Da. apply Z.add_nocarry_lxor, Da. }
        rewrite E, IH.
        + rewrite use_enable. cbn [In]. split.
          * intros [[H|[-> H]]|[H1 H2]]; auto.
          * intros [H|[[->|H1] H2]]; auto.
        + exact N.
        + intros o' Ho. destruct (use _ o') eqn:Q; [|reflexivity]. apply use_enable in Q. destruct Q as [Q|[-> _]]; [|contradiction].
          rewrite D in Q by (right; exact Ho). discriminate. }
    intro o. rewrite (G l 0 N).
    - split; [|auto]. intros [H|H]; [|exact H]. unfold use in H. rewrite Z.land_0_l in H. discriminate.
    - intros o' _. unfold use. rewrite Z.land_0_l. reflexivity.
  Qed.
End Bits.

(** Temporary options: enabling adds one option to the set, disabling removes it, NONE is never in it,
    and the result is still an int. *)
Theorem temp_options : forall s o o', is_int s ->
  (use_temp_option (enable_temp_option s o) o' = true <-> use_temp_option s o' = true \/ (o' = o /\ o <> NONE)) /\
  (use_temp_option (disable_temp_option s o) o' = true <-> use_temp_option s o' = true /\ o' <> o) /\
  use_temp_option s NONE = false /\
  is_int (enable_temp_option s o) /\ is_int (disable_temp_option s o).
Proof.
  intros s o o' I. split; [|split; [|split]].
  - apply (use_enable temp_value NONE eq_refl temp_bit temp_inj).
  - apply (use_disable temp_value NONE eq_refl temp_bit temp_inj).
  - apply (use_none temp_value NONE eq_refl).
  - apply (range_keep temp_value NONE eq_refl temp_bit s o I).
Qed.
Print Assumptions temp_options.

(** The same for the branch-and-bound options. *)
Theorem bb_options : forall s o o', is_int s ->
  (use_bb_option (enable_bb_option s o) o' = true <-> use_bb_option s o' = true \/ (o' = o /\ o <> off)) /\
  (use_bb_option (disable_bb_option s o) o' = true <-> use_bb_option s o' = true /\ o' <> o) /\
  use_bb_option s off = false /\
  is_int (enable_bb_option s o) /\ is_int (disable_bb_option s o).
Proof.
  intros s o o' I. split; [|split; [|split]].
  - apply (use_enable bb_value off eq_refl bb_bit bb_inj).
  - apply (use_disable bb_value off eq_refl bb_bit bb_inj).
  - apply (use_none bb_value off eq_refl).
  - apply (range_keep bb_value off eq_refl bb_bit s o I).
Qed.
Print Assumptions bb_options.

(** The value computed for a list without repetitions is the set of its members. *)
Theorem bb_option_list : forall l, NoDup l ->
  forall o, use_bb_option (get_bb_option_value l) o = true <-> In o l /\ o <> off.
Proof. apply (sum_members bb_value off eq_refl bb_bit bb_inj). Qed.
Print Assumptions bb_option_list.

(** With a repeated option the sum is another set: two times cbc is cplex. *)
Theorem bb_option_list_repeated_refuted :
  use_bb_option (get_bb_option_value [cbc; cbc]) cbc = false /\ use_bb_option (get_bb_option_value [cbc; cbc]) cplex = true.
Proof. split; reflexivity. Qed.
Print Assumptions bb_option_list_repeated_refuted.

Example option_bits_meet : NoDup [gurobi; user_cuts; presolve_off] /\ get_bb_option_value [gurobi; user_cuts; presolve_off] = 536 /\
  is_int (-1) /\ use_temp_option (-1) SAVE_IP_OPT = true /\
  use_temp_option (disable_temp_option (-1) SAVE_IP_OPT) SAVE_IP_OPT = false.
Proof. split; [repeat constructor; cbn; intuition discriminate|]. split; [reflexivity|]. split; [unfold is_int; lia|]. split; reflexivity. Qed.
