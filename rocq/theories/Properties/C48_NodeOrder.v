(** C48: node comparison is a strict weak order and breadth-first. *)
From Coq Require Import Sorting.Sorted Permutation.
From Verif Require Import Prelude Model.Ordering Spec.OrderSpec.

(** Whatever strict weak order breaks ties. *)
Theorem bfs_strict_weak_order : forall eqt, strict_weak_order eqt -> strict_weak_order (bfs_test eqt).
Proof.
  intros eqt (I & A & T & W). unfold bfs_test. split; [|split; [|split]].
  - intro a. rewrite Nat.eqb_refl. cbn [negb]. apply I.
  - intros a b H. destruct (Nat.eqb_spec (bn_depth a) (bn_depth b)) as [E|N]; cbn [negb] in H.
    + rewrite <- E, Nat.eqb_refl. cbn [negb]. apply A, H.
    + apply Nat.ltb_lt in H. destruct (Nat.eqb_spec (bn_depth b) (bn_depth a)); [lia|]. cbn [negb]. apply Nat.ltb_ge. lia.
  - intros a b c H1 H2. destruct (Nat.eqb_spec (bn_depth a) (bn_depth b)), (Nat.eqb_spec (bn_depth b) (bn_depth c)); cbn [negb] in *;
      destruct (Nat.eqb_spec (bn_depth a) (bn_depth c)); cbn [negb]; try lia;
      try (apply Nat.ltb_lt in H1); try (apply Nat.ltb_lt in H2); try (apply Nat.ltb_lt; lia); try lia.
    exact (T _ _ _ H1 H2).
  - intros a b c H1 H2 H3 H4.
    destruct (Nat.eqb_spec (bn_depth a) (bn_depth b)), (Nat.eqb_spec (bn_depth b) (bn_depth a)); try congruence; cbn [negb] in *;
      [|apply Nat.ltb_ge in H1, H2; lia].
    destruct (Nat.eqb_spec (bn_depth b) (bn_depth c)), (Nat.eqb_spec (bn_depth c) (bn_depth b)); try congruence; cbn [negb] in *;
      [|apply Nat.ltb_ge in H3, H4; lia].
    destruct (Nat.eqb_spec (bn_depth a) (bn_depth c)), (Nat.eqb_spec (bn_depth c) (bn_depth a)); try congruence; cbn [negb].
    exact (W _ _ _ H1 H2 H3 H4).
Qed.
Print Assumptions bfs_strict_weak_order.

(** A node of smaller depth is always preferred; ties are left to the tie-break. *)
Theorem bfs_prefers_shallow : forall eqt x y,
  ((bn_depth y < bn_depth x)%nat -> bfs_test eqt x y = true /\ bfs_test eqt y x = false) /\
  (bn_depth x = bn_depth y -> bfs_test eqt x y = eqt x y).
Proof.
  intros eqt x y. unfold bfs_test. split.
  - intro H. destruct (Nat.eqb_spec (bn_depth x) (bn_depth y)), (Nat.eqb_spec (bn_depth y) (bn_depth x)); try lia. cbn [negb].
    split; [apply Nat.ltb_lt|apply Nat.ltb_ge]; lia.
  - intros ->. rewrite Nat.eqb_refl. reflexivity.
Qed.
Print Assumptions bfs_prefers_shallow.

(** A search that always takes a best live node and replaces it by children one level deeper. *)
Inductive explores (better : bnode -> bnode -> bool) : list bnode -> list bnode -> Prop :=
| ExStop live : explores better live []
| ExStep live n rest children trace :
    Permutation live (n :: rest) -> (forall m, In m rest -> better n m = false) ->
    (forall m, In m children -> bn_depth m = S (bn_depth n)) ->
    explores better (children ++ rest) trace -> explores better live (n :: trace).

(** Nodes come in order of depth, whatever the tree: breadth-first. *)
Theorem bfs_explores_by_depth : forall eqt live trace, explores (bfs_test eqt) live trace ->
  StronglySorted (fun x y => (bn_depth x <= bn_depth y)%nat) trace /\
  forall d, (forall m, In m live -> (d <= bn_depth m)%nat) -> forall m, In m trace -> (d <= bn_depth m)%nat.
Proof.
  intros eqt live trace E. induction E as [live|live n rest children trace P Bst C E [IH1 IH2]].
  - split; [constructor|]. intros d _ m [].
  - assert (L : forall m, In m (children ++ rest) -> (bn_depth n <= bn_depth m)%nat).
    { intros m Hm. apply in_app_or in Hm. destruct Hm as [Hm|Hm]; [rewrite (C _ Hm); lia|].
      pose proof (Bst _ Hm) as F. destruct (Nat.le_gt_cases (bn_depth n) (bn_depth m)) as [|G]; [assumption|].
      destruct (bfs_prefers_shallow eqt n m) as [K _]. destruct (K G) as [K1 _]. congruence. }
    split.
    + constructor; [exact IH1|]. apply Forall_forall. apply IH2. exact L.
    + intros d Hd m [->|Hm].
      * apply Hd. apply (Permutation_in m (Permutation_sym P)). left. reflexivity.
      * assert (D : (d <= bn_depth n)%nat) by (apply Hd; apply (Permutation_in n (Permutation_sym P)); left; reflexivity).
        apply (IH2 (bn_depth n)) in Hm; [lia|exact L].
Qed.
Print Assumptions bfs_explores_by_depth.

(** Example: Cbc's tie-break (larger node number is worse) is a strict weak order, and a search of four
    nodes over three levels. *)
Definition by_number (x y : bnode) : bool := Nat.ltb (bn_number y) (bn_number x).
Definition nd (d k : nat) : bnode := {| bn_depth := d; bn_number := k |}.
Example bfs_meets : strict_weak_order by_number /\
  explores (bfs_test by_number) [nd 0 0] [nd 0 0; nd 1 1; nd 1 2; nd 2 3] /\
  bfs_test by_number (nd 2 3) (nd 1 2) = true /\ bfs_test by_number (nd 1 2) (nd 1 1) = true.
Proof.
  split; [|split; [|split; reflexivity]].
  - unfold by_number. split; [|split; [|split]].
    + intro a. apply Nat.ltb_irrefl.
    + intros a b H. apply Nat.ltb_lt in H. apply Nat.ltb_ge. lia.
    + intros a b c H1 H2. apply Nat.ltb_lt in H1, H2. apply Nat.ltb_lt. lia.
    + intros a b c H1 H2 H3 H4. apply Nat.ltb_ge in H1, H2, H3, H4. split; apply Nat.ltb_ge; lia.
  - apply (ExStep _ _ _ [] [nd 1 1; nd 1 2]); [reflexivity|intros m []| |].
    { intros m [<-|[<-|[]]]; reflexivity. }
    apply (ExStep _ _ _ [nd 1 2] [nd 2 3; nd 2 4]); [reflexivity|intros m [<-|[]]; reflexivity| |].
    { intros m [<-|[<-|[]]]; reflexivity. }
    apply (ExStep _ _ _ [nd 2 3; nd 2 4] []); [| |intros m []|].
    { cbn [app]. apply Permutation_sym. apply (Permutation_middle [nd 2 3; nd 2 4] [] (nd 1 2)). }
    { intros m [<-|[<-|[]]]; reflexivity. }
    apply (ExStep _ _ _ [nd 2 4] []); [reflexivity|intros m [<-|[]]; reflexivity|intros m []|]. constructor.
Qed.
