(** Dot products and packed-vector sums of src/utility/utility.cpp:421-717. *)
From Verif Require Export Prelude Model.Tolerance.

(** State of the compensated accumulation loop (utility.cpp:550-557): accumulator and
    compensation. *)
Record kahan := { acc : Q; comp : Q }.

(** One loop iteration, utility.cpp:559-567 (same text at 583-590 and 609-617):
    [currterm = a*b - compensation; nextacc = accumulator + currterm;
     compensation = (nextacc - accumulator) - currterm; accumulator = nextacc]. *)
Definition kahan_step (s : kahan) (a b : Q) : kahan :=
  let currterm := a * b - comp s in
  let nextacc := acc s + currterm in
  {| acc := nextacc; comp := (nextacc - acc s) - currterm |}.

(** The variant without the (commented-out) compensation update, utility.cpp:447-455,
    469-477, 496-505: [compensation] keeps its initial value. *)
Definition plain_step (s : kahan) (a b : Q) : kahan :=
  let currterm := a * b - comp s in
  {| acc := acc s + currterm; comp := comp s |}.

(** utility.cpp:438-521 and 549-634: the two local variables at the start. *)
Definition kahan0 : kahan := {| acc := 0; comp := 0 |}.

(** utility.cpp:549-569 [dotProduct(const double* a, const double* b, int dimension)];
    arrays as functions, loop over [0..dimension-1]. *)
Definition dotProduct_dense (a b : nat -> Q) (dimension : nat) : Q :=
  acc (fold_left (fun s i => kahan_step s (a i) (b i)) (seq 0 dimension) kahan0).

(** utility.cpp:572-593 [dotProduct(sizea, indexa, a, b)] (sparse x dense). *)
Definition dotProduct_sparse_dense (v : packed) (b : nat -> Q) : Q :=
  acc (fold_left (fun s e => kahan_step s (snd e) (b (fst e))) v kahan0).

(** utility.cpp:596-631 the merging loop of [dotProduct] on two sparse vectors.  The two
    position counters become the remaining suffixes of the two arrays. *)
Fixpoint dot_merge (step : kahan -> Q -> Q -> kahan) (va : packed) : packed -> kahan -> kahan :=
  fix inner (vb : packed) (s : kahan) : kahan :=
    match va, vb with
    | [], _ => s                                           (* posa < sizea fails *)
    | _, [] => s                                           (* posb < sizeb fails *)
    | ea :: ra, eb :: rb =>
        if Nat.eqb (fst ea) (fst eb) then dot_merge step ra rb (step s (snd ea) (snd eb))
        else if Nat.ltb (fst ea) (fst eb) then dot_merge step ra vb s
        else inner rb s
    end.
(** utility.cpp:596-634. *)
Definition dotProduct_sparse_sparse (va vb : packed) : Q :=
  acc (dot_merge kahan_step va vb kahan0).

(** utility.cpp:438-457, 460-480, 483-521 [dotProductNoCompensation]. *)
Definition dotProductNoCompensation_dense (a b : nat -> Q) (dimension : nat) : Q :=
  acc (fold_left (fun s i => plain_step s (a i) (b i)) (seq 0 dimension) kahan0).
(** utility.cpp:460-480. *)
Definition dotProductNoCompensation_sparse_dense (v : packed) (b : nat -> Q) : Q :=
  acc (fold_left (fun s e => plain_step s (snd e) (b (fst e))) v kahan0).
(** utility.cpp:483-521. *)
Definition dotProductNoCompensation_sparse_sparse (va vb : packed) : Q :=
  acc (dot_merge plain_step va vb kahan0).

(** utility.cpp:649-717 [packedSortedVectorSum]. *)

(** utility.cpp:691-695 and 711-715: entry of vec2 alone; the filter looks at the raw value
    (not at [mult2 * value]). *)
Definition sum_vec2_entry (mult2 eps : Q) (e : nat * Q) : packed :=
  if isZero (snd e) eps then [] else [(fst e, mult2 * snd e)].

(** utility.cpp:684-704: inner [while] over vec2 for one element [e1] of vec1.
    Returns the entries pushed, the new value of [new_val] and the rest of vec2. *)
Fixpoint sum_inner (mult2 eps : Q) (ind1 : nat) (new_val : Q) (v2 : packed)
  : packed * Q * packed :=
  match v2 with
  | [] => ([], new_val, [])
  | e2 :: r2 =>
      if Nat.ltb (fst e2) ind1 then
        let '(out, nv, rest) := sum_inner mult2 eps ind1 new_val r2 in
        (sum_vec2_entry mult2 eps e2 ++ out, nv, rest)
      else if Nat.eqb (fst e2) ind1 then ([], new_val + mult2 * snd e2, r2)   (* break *)
      else ([], new_val, v2)                                                 (* break *)
  end.

(** utility.cpp:683-716: outer loop over vec1 followed by the tail of vec2. *)
Fixpoint sum_outer (mult1 mult2 eps : Q) (v1 v2 : packed) : packed :=
  match v1 with
  | [] => flat_map (sum_vec2_entry mult2 eps) v2
  | e1 :: r1 =>
      let '(out, nv, rest) := sum_inner mult2 eps (fst e1) (mult1 * snd e1) v2 in
      out ++ (if isZero nv eps then [] else [(fst e1, nv)]) ++ sum_outer mult1 mult2 eps r1 rest
  end.

(** utility.cpp:649-717.  [sum0] is the caller's vector on entry (returned untouched when
    both multipliers are near zero, lines 653-655). *)
Definition packedSortedVectorSum (sum0 : packed) (mult1 : Q) (v1 : packed)
    (mult2 : Q) (v2 : packed) (eps : Q) : packed :=
  if isZero mult1 eps || isZero mult2 eps then
    if isZero mult1 eps && isZero mult2 eps then sum0
    else
      let mult := if isZero mult1 eps then mult2 else mult1 in
      let base := if isZero mult1 eps then v2 else v1 in
      map (fun e => (fst e, mult * snd e)) base
  else sum_outer mult1 mult2 eps v1 v2.
