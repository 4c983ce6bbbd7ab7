(** What a comparison function must satisfy for the C++ library (requirement "Compare"). *)
From Verif Require Import Prelude.

Definition strict_weak_order {A} (lt : A -> A -> bool) : Prop :=
  (forall a, lt a a = false) /\
  (forall a b, lt a b = true -> lt b a = false) /\
  (forall a b c, lt a b = true -> lt b c = true -> lt a c = true) /\
  (forall a b c, lt a b = false -> lt b a = false -> lt b c = false -> lt c b = false -> lt a c = false /\ lt c a = false).
(** Two elements the library treats as the same. *)
Definition equivalent {A} (lt : A -> A -> bool) (a b : A) : Prop := lt a b = false /\ lt b a = false.
