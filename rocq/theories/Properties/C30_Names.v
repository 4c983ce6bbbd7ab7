(** C30: the description of a disjunction. *)
From Verif Require Import Prelude Model.TextUtil Model.Names Spec.TextSpec Spec.NameSpec Proofs.TextP Proofs.NamesP.
From Coq Require Import Qround Lqa.

(** Terms given by name: the description lists the non-empty names in order, each in parentheses,
    separated by " V ". *)
Theorem terms_listed : forall names : list text,
  fold_left setCgsName_term names [] =
  join (txt " V ") (map paren (filter (fun t => match t with [] => false | _ => true end) names)).
Proof.
  assert (G : forall names acc, acc <> [] ->
    fold_left setCgsName_term names acc =
    acc ++ fold_right (fun t r => txt " V " ++ t ++ r) []
      (map paren (filter (fun t => match t with [] => false | _ => true end) names))).
  { induction names as [|n names IH]; intros acc N; cbn [fold_left map filter].
    - cbn. rewrite app_nil_r. reflexivity.
    - destruct n as [|c n].
      + cbn [setCgsName_term]. apply IH, N.
      + rewrite IH by (unfold setCgsName_term; destruct acc; [congruence|discriminate]).
        unfold setCgsName_term. destruct acc as [|a acc]; [congruence|]. cbn [map fold_right].
        unfold paren. repeat (rewrite <- ?app_assoc; cbn [app txt String.list_ascii_of_string]). reflexivity. }
  induction names as [|n names IH]; [reflexivity|]. cbn [fold_left filter].
  destruct n as [|c n]; [exact IH|]. cbn [map]. rewrite G by discriminate. rewrite join_fold. reflexivity.
Qed.

(** Inequalities given by data (integers within int): calling the function once per inequality, a
    new term with append = false and its further inequalities with append = true, yields a
    description that reads as exactly these terms, in this order. *)
Theorem inequalities_listed : forall d : list (list plain),
  Forall (fun l => l <> [] /\ Forall plain_ok l) d ->
  exists t, all_calls [] (map (map to_ineq) d) = Some t /\ name_reads t d.
Proof. exact all_calls_spec. Qed.

(** ... and it identifies them: no other list of terms has that description. *)
Theorem description_determines_terms : forall d e : list (list plain),
  Forall (fun l => l <> [] /\ Forall plain_ok l) d ->
  Forall (fun l => l <> [] /\ Forall plain_ok l) e ->
  all_calls [] (map (map to_ineq) d) = all_calls [] (map (map to_ineq) e) -> d = e.
Proof.
  intros d e D E H. destruct (all_calls_spec d D) as (t & T & R). destruct (all_calls_spec e E) as (u & U & S0).
  rewrite T, U in H. injection H as <-. apply (name_unique t d e R S0).
  - eapply Forall_impl; [|exact D]. intros l (A & _). exact A.
  - eapply Forall_impl; [|exact E]. intros l (A & _). exact A.
Qed.
Example description_example :
  let d := [ [ ([(0, 2); (13, -1)], 5) ]; [ ([(0, -1)], -3); ([(2, 1)], 10) ] ]%Z in
  Forall (fun l => l <> [] /\ Forall plain_ok l) d /\
  all_calls [] (map (map to_ineq) d) = Some (txt "(+2 x0-x13 >= 5) V (-x0 >= -3; +x2 >= 10)").
Proof.
  cbv zeta. split; [|vm_compute; reflexivity].
  repeat constructor; cbn; try discriminate; unfold in_int, INT_MIN, INT_MAX; try lia.
Qed.

(** A number in a description is off by less than one, and by at most half of the last printed
    digit unless its magnitude falls short of an integer by less than 1e-7. *)
Theorem printed_numbers : forall q t, number_text q = Some t ->
  exists v, (decimal t v \/ exists z, signed t z /\ (v == inject_Z z)%Q) /\
    (Qabs (v - q) < 1)%Q /\
    ((forall z, ~ (0 < Qabs (inject_Z z) - Qabs q < 1 # 10000000)%Q) -> (Qabs (v - q) <= 1 # 2000000)%Q).
Proof. exact number_text_spec. Qed.
Example printed_numbers_example : number_text (5 # 2) = Some (txt "2.500000") /\ number_text (-1 # 3) = Some (txt "-0.333333").
Proof. split; vm_compute; reflexivity. Qed.

(** The exception is real: 2.99999999 is printed as 2, one unit away. *)
Theorem truncated_refuted : exists q,
  (3 - q < 1 # 10000000)%Q /\ (q < 3)%Q /\ number_text q = Some (txt "2").
Proof. exists (299999999 # 100000000). repeat split. Qed.

(** A split disjunction on [var] at [val] is described, from a fresh object, as
    "(x<var> <= <floor val>) V (x<var> >= <ceil val>)". *)
Theorem split_description : forall var val,
  (0 <= var)%Z -> in_int (Qfloor val) -> in_int (Qceiling val) ->
  exists v f c, unsigned v var /\ signed f (Qfloor val) /\ signed c (Qceiling val) /\
    split_setCgsName [] var val =
    Some (join (txt " V ") [paren (txt "x" ++ v ++ txt " <= " ++ f); paren (txt "x" ++ v ++ txt " >= " ++ c)]).
Proof.
  intros var val V (F1 & F2) (C1 & C2).
  exists (int_text var), (int_text (Qfloor val)), (int_text (Qceiling val)).
  split; [apply int_text_unsigned, V|]. split; [apply int_text_spec|]. split; [apply int_text_spec|].
  unfold split_setCgsName. replace (var <? 0)%Z with false by (symmetry; apply Z.ltb_ge; exact V).
  unfold cast_int. rewrite !truncate_Z. apply Z.leb_le in F1, F2, C1, C2. rewrite F1, F2, C1, C2. cbn [andb].
  f_equal. unfold setCgsName_term. cbn [txt String.list_ascii_of_string app join]. unfold paren.
  repeat (rewrite <- ?app_assoc; cbn [app]). reflexivity.
Qed.
Example split_description_example : split_setCgsName [] 4 (7 # 2) = Some (txt "(x4 <= 3) V (x4 >= 4)").
Proof. vm_compute. reflexivity. Qed.

(** Preparing the same split object again does not replace the description: it grows, so it then
    describes four terms. *)
Theorem split_again_refuted : exists n1 n2,
  split_setCgsName [] 4 (7 # 2) = Some n1 /\ split_setCgsName n1 5 (1 # 2) = Some n2 /\
  n2 = txt "(x4 <= 3) V (x4 >= 4) V (x5 <= 0) V (x5 >= 1)".
Proof. eexists _, _. split; [vm_compute; reflexivity|]. split; vm_compute; reflexivity. Qed.

(** A term of a partial branch-and-bound disjunction with no bound changed above it is described by
    its branching inequality. *)
Theorem tree_description_shallow : forall var way val,
  (0 <= var)%Z -> in_int val -> in_int (- val) ->
  exists t, tree_setCgsName [] var way (inject_Z val) [] = Some t /\
    name_reads t [[ ([(var, if (way <=? 0)%Z then -1 else 1)], if (way <=? 0)%Z then - val else val) ]]%Z.
Proof.
  intros var way val V V1 V2. unfold tree_setCgsName.
  set (p := ([(var, if (way <=? 0)%Z then -1 else 1)], if (way <=? 0)%Z then - val else val)%Z : plain).
  assert (P : plain_ok p).
  { unfold p. split; [discriminate|]. split; [|destruct (way <=? 0)%Z; assumption].
    constructor; [|constructor]. split; [exact V|]. destruct (way <=? 0)%Z; cbn; unfold in_int, INT_MIN, INT_MAX; lia. }
  assert (E : branch_ineq var way (inject_Z val) = to_ineq p).
  { unfold branch_ineq, to_ineq, p. destruct (way <=? 0)%Z; cbn [map fst snd]; f_equal; destruct val; reflexivity. }
  rewrite E. destruct (ineq_Z p P) as (t & R & S1). rewrite S1. cbn [map setCgsName_ineqs].
  eexists. split; [reflexivity|]. exists [paren t]. split; [|reflexivity].
  constructor; [|constructor]. exists [t]. split; [constructor; [exact R|constructor]|reflexivity].
Qed.
Example tree_description_shallow_example :
  tree_setCgsName [] 7 0 (inject_Z 3) [] = Some (txt "(-x7 >= -3)").
Proof. vm_compute. reflexivity. Qed.

(** As soon as a bound was changed above the branching, the description is not of the documented
    shape: it reads as no list of terms at all, whatever the data. *)
Theorem tree_description_refuted : forall var way val (parents : list (Z * Z * Z)),
  (0 <= var)%Z -> in_int val -> in_int (- val) -> parents <> [] ->
  Forall (fun c => (0 <= fst (fst c))%Z /\ in_int (snd c) /\ in_int (- snd c)) parents ->
  exists t, tree_setCgsName [] var way (inject_Z val)
              (map (fun c => (fst (fst c), snd (fst c), inject_Z (snd c))) parents) = Some t /\
            forall d, ~ name_reads t d.
Proof.
  intros var way val parents V V1 V2 NP FP. unfold tree_setCgsName.
  set (p := ([(var, if (way <=? 0)%Z then -1 else 1)], if (way <=? 0)%Z then - val else val)%Z : plain).
  assert (P : plain_ok p).
  { unfold p. split; [discriminate|]. split; [|destruct (way <=? 0)%Z; assumption].
    constructor; [|constructor]. split; [exact V|]. destruct (way <=? 0)%Z; cbn; unfold in_int, INT_MIN, INT_MAX; lia. }
  assert (E : branch_ineq var way (inject_Z val) = to_ineq p).
  { unfold branch_ineq, to_ineq, p. destruct (way <=? 0)%Z; cbn [map fst snd]; f_equal; destruct val; reflexivity. }
  set (q := fun c : Z * Z * Z => ([(fst (fst c), if (snd (fst c) <=? 0)%Z then 1 else -1)],
               if (snd (fst c) <=? 0)%Z then snd c else - snd c)%Z : plain).
  assert (EP : map change_ineq (map (fun c => (fst (fst c), snd (fst c), inject_Z (snd c))) parents) = map to_ineq (map q parents)).
  { rewrite !map_map. apply map_ext. intros [[x b] v]. unfold change_ineq, q, to_ineq. cbn [fst snd map].
    destruct (b <=? 0)%Z; cbn [map fst snd]; f_equal; destruct v; reflexivity. }
  assert (QP : Forall plain_ok (map q parents)).
  { apply Forall_forall. intros y Y. apply in_map_iff in Y. destruct Y as ([[x b] v] & <- & Y).
    rewrite Forall_forall in FP. specialize (FP _ Y). cbn [fst snd] in FP. destruct FP as (A & B & C).
    unfold q. cbn [fst snd]. split; [discriminate|]. split; [|destruct (b <=? 0)%Z; assumption].
    constructor; [|constructor]. split; [exact A|]. destruct (b <=? 0)%Z; cbn; unfold in_int, INT_MIN, INT_MAX; lia. }
  rewrite E. destruct (ineq_Z p P) as (t & R & S1). rewrite S1, EP.
  destruct (ineqs_calls_spec (map q parents)) as (ts & G & L); [destruct parents; [congruence|discriminate]|exact QP|].
  rewrite L. eexists. split; [reflexivity|]. intros d.
  change (opening [] false) with ["("%char].
  cbn [app]. change ("("%char :: t ++ [")"%char]) with (("("%char :: t) ++ [")"%char]). rewrite opening_append. cbn [app].
  set (body := join (txt "; ") ts).
  assert (NB : ~ In ")"%char body) by (apply (join_no_char _ _ (map q parents)); [right; right; reflexivity|exact G]).
  assert (NT : ~ In ")"%char t) by (apply (ineq_no_char _ _ p); [right; right; reflexivity|exact R]).
  intros H. apply (unreadable (t ++ txt ";  ") (txt " (" ++ body) [")"%char] d).
  - intros I0. apply in_app_or in I0. destruct I0 as [I0|I0]; [exact (NT I0)|].
    cbn in I0. repeat (destruct I0 as [I0|I0]; [discriminate|]). exact I0.
  - intros I0. apply in_app_or in I0. destruct I0 as [I0|I0]; [|exact (NB I0)].
    cbn in I0. repeat (destruct I0 as [I0|I0]; [discriminate|]). exact I0.
  - unfold paren in H. repeat (rewrite <- ?app_assoc in H; cbn [app txt String.list_ascii_of_string] in H).
    repeat (rewrite <- ?app_assoc; cbn [app txt String.list_ascii_of_string]). exact H.
Qed.
Example tree_description_example :
  tree_setCgsName [] 0 0 (inject_Z 1) [(1, 0, inject_Z 2); (3, 1, inject_Z 4)]%Z
  = Some (txt "(-x0 >= -1;  V (+x1 >= 2; -x3 >= -4))").
Proof. vm_compute. reflexivity. Qed.

(** An integral bound outside the range of int has no defined description. *)
Theorem large_number_refuted : number_text (inject_Z 3000000000) = None.
Proof. vm_compute. reflexivity. Qed.

Print Assumptions terms_listed.
Print Assumptions inequalities_listed.
Print Assumptions description_determines_terms.
Print Assumptions printed_numbers.
Print Assumptions truncated_refuted.
Print Assumptions split_description.
Print Assumptions split_again_refuted.
Print Assumptions tree_description_shallow.
Print Assumptions tree_description_refuted.
Print Assumptions large_number_refuted.
