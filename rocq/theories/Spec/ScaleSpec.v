(** Decimal logarithms cut to integers, the magnitudes of a cut, matrices in arrays. *)
From Verif Require Export Model.ScaleCut Spec.ReportSpec.
#[local] Open Scope Q_scope.

(** [e] is log10(x) rounded towards zero. *)
Definition whole_log (x : Q) (e : Z) : Prop :=
  (1 <= x /\ (0 <= e)%Z /\ power e <= x < power (e + 1)) \/ (x < 1 /\ (e <= 0)%Z /\ power (e - 1) < x <= power e).
(** The logarithms are exact before they are cut. *)
Definition logs (lg : Q -> Z) : Prop := forall x, 0 < x -> whole_log x (lg x).
(** A magnitude that counts: of a coefficient that is not zero within the tolerance. *)
Definition counted (EPS : Q) (c : cut) (a : Q) : Prop := exists e, In e (crow c) /\ a = Qabs (snd e) /\ isZero a EPS = false.
(** The smallest of them, and the largest of them and of the right-hand side. *)
Definition smallest (EPS : Q) (c : cut) (a : Q) : Prop := counted EPS c a /\ forall b, counted EPS c b -> a <= b.
Definition largest (EPS : Q) (c : cut) (a : Q) : Prop :=
  (counted EPS c a \/ a = Qabs (crhs c)) /\ (forall b, counted EPS c b -> b <= a) /\ Qabs (crhs c) <= a.
(** The point satisfies the cut. *)
Definition accepts (c : cut) (x : nat -> Q) : Prop := crhs c <= pdot (crow c) x.
(** The matrix with these major vectors is stored in the arrays: each vector from its start, its length, indices beside elements. *)
Definition stored (m : storage) (vs : list packed) : Prop :=
  length (m_start m) = length vs /\ length (m_length m) = length vs /\
  forall j v, nth_error vs j = Some v -> exists s, nth_error (m_start m) j = Some s /\ nth_error (m_length m) j = Some (length v) /\
    forall k e, nth_error v k = Some e -> nth_error (m_index m) (s + k) = Some (fst e) /\ nth_error (m_elem m) (s + k) = Some (snd e).
