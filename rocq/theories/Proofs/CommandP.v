(** Lemmas about the command line. *)
From Verif Require Import Prelude Model.TextUtil Model.Parameters Model.CommandLine Spec.TextSpec Spec.ParamSpec Spec.CommandSpec Proofs.TextP Proofs.ParamP.
#[local] Open Scope Z_scope.

Lemma is_prefix_starts a b : is_prefix a b = true <-> starts a b.
Proof.
  revert b. induction a as [|x a IH]; intro b; cbn [is_prefix].
  - split; [intros _; exists b; reflexivity|reflexivity].
  - destruct b as [|y b]; [split; [discriminate|intros [r H]; discriminate]|].
    rewrite andb_true_iff, Ascii.eqb_eq, IH. split.
    + intros [-> [r ->]]. exists r. reflexivity.
    + intros [r H]. cbn [app] in H. injection H as -> ->. split; [reflexivity|exists r; reflexivity].
Qed.

(** Every long name of the table is one of the specification's, and conversely. *)
Lemma table_names : forall t, In t (map lo_name long_opts) <-> exists n, In n long_names /\ t = txt n.
Proof.
  assert (A : forallb (fun o => existsb (fun n => text_eqb (lo_name o) (txt n)) long_names) long_opts = true) by (vm_compute; reflexivity).
  assert (B : forallb (fun n => existsb (fun o => text_eqb (lo_name o) (txt n)) long_opts) long_names = true) by (vm_compute; reflexivity).
  rewrite forallb_forall in A, B. intro t. split.
  - intro H. apply in_map_iff in H. destruct H as (o & <- & Ho). specialize (A o Ho). apply existsb_exists in A. destruct A as (n & Hn & E). exists n. split; [exact Hn|]. apply text_eqb_eq, E.
  - intros (n & Hn & ->). specialize (B n Hn). apply existsb_exists in B. destruct B as (o & Ho & E). apply text_eqb_eq in E. rewrite <- E. apply in_map, Ho.
Qed.
Lemma table_nodup : NoDup (map lo_name long_opts).
Proof.
  assert (A : forall l : list text, (fix chk l := match l with [] => true | a :: r => negb (existsb (text_eqb a) r) && chk r end) l = true -> NoDup l).
  { induction l as [|a l IH]; intro H; constructor; apply andb_true_iff in H; destruct H as [H1 H2].
    - intro K. apply negb_true_iff in H1. assert (existsb (text_eqb a) l = true); [|congruence]. apply existsb_exists. exists a. split; [exact K|apply text_eqb_refl].
    - apply IH, H2. }
  apply A. vm_compute. reflexivity.
Qed.
Lemma txt_inj a b : txt a = txt b -> a = b.
Proof. unfold txt. intro H. rewrite <- (String.string_of_list_ascii_of_string a), <- (String.string_of_list_ascii_of_string b), H. reflexivity. Qed.

Lemma nodup_map_inj {A B} (f : A -> B) l : NoDup (map f l) -> forall x y, In x l -> In y l -> f x = f y -> x = y.
Proof.
  induction l as [|a l IH]; cbn [map]; intros N x y [] ; apply NoDup_cons_iff in N; destruct N as [Na N].
  - subst a. intros [->|Hy] E; [reflexivity|]. exfalso. apply Na. rewrite E. apply in_map, Hy.
  - intros [->|Hy] E; [exfalso; apply Na; rewrite <- E; apply in_map; assumption|]. apply IH; assumption.
Qed.
Lemma find_exact o : In o long_opts -> find_long (lo_name o) = Some o.
Proof.
  intros I. unfold find_long. destruct (find _ long_opts) as [o'|] eqn:F.
  - apply find_some in F. destruct F as [I' E']. apply text_eqb_eq in E'. f_equal. apply (nodup_map_inj lo_name long_opts table_nodup); auto.
  - pose proof (find_none _ _ F o I) as K. cbn beta in K. rewrite text_eqb_refl in K. discriminate.
Qed.
Lemma filter_unique {A} (f : A -> bool) l o : NoDup l -> In o l -> f o = true -> (forall x, In x l -> f x = true -> x = o) -> filter f l = [o].
Proof.
  induction l as [|a l IH]; intros N I F U; [destruct I|]. apply NoDup_cons_iff in N. destruct N as [Na N]. cbn [filter].
  destruct (f a) eqn:Fa.
  - assert (a = o) as -> by (apply U; [left; reflexivity|exact Fa]). f_equal.
    destruct (filter f l) as [|y r] eqn:E; [reflexivity|]. exfalso. assert (K : In y (filter f l)) by (rewrite E; left; reflexivity).
    apply filter_In in K. destruct K as [K1 K2]. apply Na. rewrite <- (U y (or_intror K1) K2). exact K1.
  - destruct I as [->|I]; [congruence|]. apply IH; auto. intros; apply U; [right|]; assumption.
Qed.
(** What a name stands for. *)
Lemma find_long_iff a o : find_long a = Some o <-> In o long_opts /\ (a = lo_name o \/ (starts a (lo_name o) /\ forall o', In o' long_opts -> starts a (lo_name o') -> o' = o)).
Proof.
  split.
  - unfold find_long. destruct (find _ long_opts) as [o'|] eqn:F.
    + intros [= ->]. apply find_some in F. destruct F as [I E]. apply text_eqb_eq in E. auto.
    + destruct (filter _ long_opts) as [|x [|y r]] eqn:E; try discriminate. intros [= ->].
      assert (K : forall o', In o' [o] <-> In o' long_opts /\ is_prefix a (lo_name o') = true) by (intro; rewrite <- E; apply filter_In).
      destruct (proj1 (K o) (or_introl eq_refl)) as [I P]. split; [exact I|]. right. split; [apply is_prefix_starts, P|].
      intros o' I' S. apply is_prefix_starts in S. destruct (proj2 (K o') (conj I' S)) as [->|[]]. reflexivity.
  - intros (I & [->|[S U]]); [apply find_exact, I|]. unfold find_long. destruct (find _ long_opts) as [o'|] eqn:F.
    + apply find_some in F. destruct F as [I' E]. apply text_eqb_eq in E. f_equal. apply U; [exact I'|]. exists []. rewrite app_nil_r. exact E.
    + rewrite (filter_unique _ long_opts o); [reflexivity| |exact I|apply is_prefix_starts, S|].
      * apply (NoDup_map_inv lo_name), table_nodup.
      * intros x Hx Px. apply U; [exact Hx|]. apply is_prefix_starts, Px.
Qed.
Lemma find_abbrev a n : In n long_names -> stands_for a n -> find_long a = find_long (txt n).
Proof.
  intros L H.
  assert (T := proj2 (table_names (txt n)) (ex_intro _ n (conj L eq_refl))). apply in_map_iff in T. destruct T as (o & E & Ho).
  rewrite <- E, (find_exact o Ho). apply find_long_iff. split; [exact Ho|]. rewrite E. destruct H as [->|[S U]]; [auto|]. right. split; [exact S|].
  intros o' Ho' S'. destruct (proj1 (table_names (lo_name o')) (in_map _ _ _ Ho')) as (n' & In' & En'). rewrite En' in S'.
  apply (nodup_map_inj lo_name long_opts table_nodup); [exact Ho'|exact Ho|]. rewrite En', E. f_equal. apply U; assumption.
Qed.

Definition no_eq (a : text) : Prop := ~ In "="%char a.
Lemma split_eq_none a : no_eq a -> split_eq a = (a, None).
Proof.
  induction a as [|x a IH]; intro H; [reflexivity|]. cbn [split_eq]. destruct (Ascii.eqb_spec x "="%char) as [->|N]; [exfalso; apply H; left; reflexivity|].
  rewrite IH; [reflexivity|]. intro K. apply H. right. exact K.
Qed.
Lemma split_eq_some a v : no_eq a -> split_eq (a ++ "="%char :: v) = (a, Some v).
Proof.
  induction a as [|x a IH]; intro H; [reflexivity|]. cbn [app split_eq]. destruct (Ascii.eqb_spec x "="%char) as [->|N]; [exfalso; apply H; left; reflexivity|].
  rewrite IH; [reflexivity|]. intro K. apply H. right. exact K.
Qed.
Lemma stands_no_eq a n : In n long_names -> stands_for a n -> no_eq a.
Proof.
  intros I H. assert (K : forallb (fun n => negb (existsb (Ascii.eqb "="%char) (txt n))) long_names = true) by (vm_compute; reflexivity).
  rewrite forallb_forall in K. specialize (K n I). apply negb_true_iff in K.
  assert (N : no_eq (txt n)). { intro J. assert (existsb (Ascii.eqb "="%char) (txt n) = true); [|congruence]. apply existsb_exists. exists "="%char. split; [exact J|reflexivity]. }
  destruct H as [->|[[r E] _]]; [exact N|]. intro J. apply N. rewrite E. apply in_or_app. left. exact J.
Qed.
Lemma stands_ne a n : In n long_names -> stands_for a n -> a <> [].
Proof.
  intros I H ->. assert (K : forallb (fun n => negb (text_eqb (txt n) [])) long_names = true) by (vm_compute; reflexivity). rewrite forallb_forall in K.
  destruct H as [E|[_ U]].
  - specialize (K n I). rewrite <- E in K. discriminate.
  - assert (A : String.eqb "help" n = true) by (apply String.eqb_eq, U; [left; reflexivity|eexists; reflexivity]).
    assert (B : String.eqb "away" n = true) by (apply String.eqb_eq, U; [right; left; reflexivity|eexists; reflexivity]).
    apply String.eqb_eq in A, B. subst n. discriminate.
Qed.

Definition after_dashes (body : text) (rest : list text) : list event :=
  let '(n, v) := split_eq body in
  match find_long n, v with
  | None, _ => bad :: getopt_long rest
  | Some o, Some v => (if lo_arg o then (lo_val o, v) else bad) :: getopt_long rest
  | Some o, None => if lo_arg o then match rest with v :: rest' => (lo_val o, v) :: getopt_long rest' | [] => [bad] end
                    else (lo_val o, []) :: getopt_long rest
  end.
Lemma getopt_dashes body rest : body <> [] -> getopt_long (("-"%char :: "-"%char :: body) :: rest) = after_dashes body rest.
Proof. destruct body as [|x body]; [congruence|]. intros _. reflexivity. Qed.

(** The value getopt_long returns for a long option of the table. *)
Definition returns (n : String.string) (c : Z) : Prop :=
  exists o, find_long (txt n) = Some o /\ lo_arg o = true /\ lo_val o = c.

Lemma valued_table n c : In (n, c) valued -> In n long_names /\ exists z, returns n z /\
  match c with Some l => short_kind l = Some true /\ ch l = z /\ l <> "-"%char | None => True end.
Proof.
  intro H. split; [right; apply in_map_iff; exists (n, c); split; [reflexivity|exact H]|].
  assert (K : forallb (fun '(n, c) => match find_long (txt n) with
      | Some o => lo_arg o && match c with Some l => match short_kind l with Some true => (ch l =? lo_val o) && negb (Ascii.eqb l "-"%char) | _ => false end | None => true end
      | None => false end) valued = true) by (vm_compute; reflexivity).
  rewrite forallb_forall in K. specialize (K (n, c) H). cbn beta iota in K. destruct (find_long (txt n)) as [o|] eqn:F; [|discriminate].
  apply andb_true_iff in K. destruct K as [A B]. exists (lo_val o). split; [exists o; auto|]. destruct c as [l|]; [|exact Logic.I].
  destruct (short_kind l) as [[]|]; try discriminate. apply andb_true_iff in B. destruct B as [B C]. apply Z.eqb_eq in B. apply negb_true_iff, Ascii.eqb_neq in C. auto.
Qed.

(** However it is written, an option with a value is one event. *)
Lemma getopt_spelled n c v args z : In (n, c) valued -> returns n z -> spelled n c v args -> forall rest, getopt_long (args ++ rest) = (z, v) :: getopt_long rest.
Proof.
  intros I (o & F & A & V) S rest. destruct (valued_table n c I) as (L & z' & (o' & F' & _ & V') & C). assert (o' = o) as -> by congruence. assert (z' = z) as -> by congruence.
  destruct S as [a S|a S|l E|l E N].
  - cbn [app]. change (txt "--" ++ a ++ "="%char :: v)%list with ("-"%char :: "-"%char :: a ++ "="%char :: v). rewrite getopt_dashes by (destruct a; discriminate).
    unfold after_dashes. rewrite split_eq_some by (apply (stands_no_eq a n L S)). rewrite (find_abbrev a n L S), F, A, V. reflexivity.
  - cbn [app]. change (txt "--" ++ a)%list with ("-"%char :: "-"%char :: a). rewrite getopt_dashes by (apply (stands_ne a n L S)).
    unfold after_dashes. rewrite split_eq_none by (apply (stands_no_eq a n L S)). rewrite (find_abbrev a n L S), F, A, V. reflexivity.
  - subst c. destruct C as (K & Z & ND). cbn [app].
    assert (G : getopt_long (["-"%char; l] :: v :: rest) = let '(es, w) := short_group [l] in es ++ match w with None => getopt_long (v :: rest) | Some c => (c, v) :: getopt_long rest end).
    { destruct l as [[] [] [] [] [] [] [] []]; try reflexivity; congruence. }
    etransitivity; [exact G|]. cbn [short_group]. rewrite K, Z. reflexivity.
  - subst c. destruct C as (K & Z & ND). cbn [app].
    assert (G : getopt_long (("-"%char :: l :: v) :: rest) = let '(es, w) := short_group (l :: v) in es ++ match w with None => getopt_long rest | Some c => match rest with v :: rest' => (c, v) :: getopt_long rest' | [] => [bad] end end).
    { destruct l as [[] [] [] [] [] [] [] []]; try reflexivity; congruence. }
    etransitivity; [exact G|]. cbn [short_group]. rewrite K, Z. destruct v; [congruence|]. reflexivity.
Qed.
