(** Comparison functions handed to sorting routines, sets and Cbc's node heap. *)
From Verif Require Export Prelude Model.Tolerance.
#[local] Open Scope Q_scope.

(** A double used as sorting key: a number or NaN; every comparison with NaN is false. *)
Inductive key := Num (q : Q) | NaN.
(** The comparison < of doubles, false with NaN. *)
Definition key_lt (a b : key) : bool := match a, b with Num p, Num q => Qltb p q | _, _ => false end.
(** The comparison > of doubles, false with NaN. *)
Definition key_gt (a b : key) : bool := key_lt b a.

(** utility.hpp:69-101 [index_cmp_dsc], [index_cmp_asc]; the lambdas of SplitDisjunction.cpp:143-145 and
    466-468 are the descending one. [arr] : the array. *)
Definition index_cmp_dsc (arr : nat -> key) (a b : nat) : bool := key_gt (arr a) (arr b).
(** utility.hpp:69-101 [index_cmp_asc]. *)
Definition index_cmp_asc (arr : nat -> key) (a b : nat) : bool := key_lt (arr a) (arr b).
(** PRLP.hpp:78-95 [rowAndActivity], [by_activity_desc], [by_activity_asc]. *)
Record rowAndActivity := { ra_row : nat; ra_activity : key }.
(** PRLP.hpp:78-95 [by_activity_desc]. *)
Definition by_activity_desc (a b : rowAndActivity) : bool := key_gt (ra_activity a) (ra_activity b).
(** PRLP.hpp:78-95 [by_activity_asc]. *)
Definition by_activity_asc (a b : rowAndActivity) : bool := key_lt (ra_activity a) (ra_activity b).

(** PRLP.hpp:98-109 [compareRayInfo] and its operator<. *)
Record rayinfo := { ri_index : nat; ri_min : Q; ri_avg : Q }.
(** PRLP.hpp:98-109 [compareRayInfo::operator<]. *)
Definition ray_lt (a b : rayinfo) : bool :=
  Qltb (ri_min b) (ri_min a) || (isVal (ri_min a) (ri_min b) (1 # 10) && Qltb (ri_avg b) (ri_avg a)).

(** PRLP.cpp:902-941 [updateRaySetForTargetedCutGeneration], what happens to one ray: [paral]: absolute
    parallelism of the ray with each cut from num_old_cuts on; [nold] = num_old_cuts - init_num_cuts,
    [nall] = num_cuts - init_num_cuts.  (The function has no callers.) *)
Definition update_ray (paral : list Q) (nold nall : nat) (r : rayinfo) : rayinfo :=
  let m := fold_left (fun m p => if Qltb p m then p else m) paral (ri_min r) in
  let tot := fold_left Qplus paral 0 in
  {| ri_index := ri_index r; ri_min := m;
     ri_avg := (ri_avg r * inject_Z (Z.of_nat nold + 1) + tot) / inject_Z (Z.of_nat nall + 1) |}.
(** std::set::insert keeps the old element when an equivalent one is there. *)
(** std::set (external), used at PRLP.cpp:902-910. *)
Definition set_insert (r : rayinfo) (s : list rayinfo) : list rayinfo :=
  if existsb (fun r' => negb (ray_lt r r') && negb (ray_lt r' r)) s then s else s ++ [r].

(** Nodes as far as the comparison sees them. *)
(** CbcNode (external), read at CbcCompareBFS.cpp:63-80. *)
Record bnode := { bn_depth : nat; bn_number : nat }.
(** CbcCompareBFS.cpp:63-73 [test]: true if y is better than x; [equalityTest] is Cbc's (external). *)
Definition bfs_test (equalityTest : bnode -> bnode -> bool) (x y : bnode) : bool :=
  if negb (Nat.eqb (bn_depth x) (bn_depth y)) then Nat.ltb (bn_depth y) (bn_depth x) else equalityTest x y.
