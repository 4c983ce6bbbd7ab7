(** How a reader understands the report: numbers, and one line per bound. *)
From Verif Require Import Prelude Model.TextUtil Model.Names Spec.TextSpec Spec.NameSpec Model.Analysis Model.BBInfo Model.LogRow Model.Report.
#[local] Open Scope Q_scope.
#[local] Open Scope list_scope.

(** A decimal number: blank or sign, digits, perhaps a point and digits, perhaps an exponent. *)
Definition power (e : Z) : Q := if (0 <=? e)%Z then inject_Z (10 ^ e) else / inject_Z (10 ^ (- e)).
Definition exponent (t : text) (e : Z) : Prop :=
  (t = [] /\ e = 0%Z) \/ (exists u, t = txt "e+" ++ u /\ unsigned u e) \/ (exists u w, t = txt "e-" ++ u /\ unsigned u w /\ e = (- w)%Z).
Definition mantissa (t : text) (m : Q) : Prop :=
  (exists z, unsigned t z /\ m == inject_Z z) \/
  (exists ip fp i f, t = ip ++ "."%char :: fp /\ unsigned ip i /\ unsigned fp f /\ m == inject_Z i + inject_Z f / inject_Z (10 ^ Z.of_nat (length fp))).
Definition number (t : text) (v : Q) : Prop :=
  exists sg man ex m e, t = sg ++ man ++ ex /\ mantissa man m /\ exponent ex e /\
    ((sg = [] \/ sg = txt " ") /\ v == m * power e \/ sg = txt "-" /\ v == - (m * power e)).

(** What the C library promises.  "% .*g" with [p] digits: a number of at most [p] + 8 characters, correct to half a unit of the
    last of the [p] digits.  "%.*f": correct to half a unit of the last decimal. *)
Definition prints_g (F : clib) (p : nat) (x : Q) : Prop :=
  (length (pf_g F p x) <= p + 8)%nat /\
  exists v, number (pf_g F p x) v /\ forall e : Z, Qabs x < power e -> Qabs (v - x) <= (1 # 2) * power (e - Z.of_nat p).
Definition prints_f (F : clib) (p : nat) (x : Q) : Prop :=
  exists v, number (pf_f F p x) v /\ Qabs (v - x) <= (1 # 2) * power (- Z.of_nat p).
(** The integer part of the logarithm (towards 0): rounding of std::log10 is monotone, exact at powers of ten, and small. *)
Definition log10_ok (F : clib) : Prop := forall x, 0 < x ->
  (forall k : nat, x <= power (Z.of_nat k) -> (pf_lg F x <= Z.of_nat k)%Z) /\ (forall k : nat, power (Z.of_nat k) <= x -> (Z.of_nat k <= pf_lg F x)%Z) /\
  (forall k : nat, x <= power (- Z.of_nat k) -> (pf_lg F x <= - Z.of_nat k)%Z) /\
  (forall k : nat, (1 <= k)%nat -> (101 # 100) * power (- Z.of_nat k) <= x -> (1 - Z.of_nat k <= pf_lg F x)%Z).

(** One line: name (16 characters), value (to 8 decimals), remark. *)
Definition known (v : Q) : Prop := Qabs v <= DBL_MAX - EPS7.
Definition shows (v : Q) (t : text) : Prop :=
  exists num k, t = num ++ blanks k /\
    (known v -> exists w, number num w /\ Qabs (w - v) <= (1 # 2) * power (-8)) /\ (DBL_MAX <= v -> num = txt "'inf'").
Record entry := { en_name : text; en_value : Q; en_note : text }.
Definition line_of (e : entry) (l : text) : Prop :=
  exists v, l = en_name e ++ blanks (16 - length (en_name e)) ++ v ++ en_note e ++ NL /\ shows (en_value e) v /\ ~ In (ascii_of_nat 10) (v ++ en_note e).
(** Remarks. *)
Definition bounds_changed (n : Z) : text := txt " (" ++ int_text n ++ txt " bounds changed)".
Definition cuts_note (n : Z) (g v : option Z) : text :=
  txt " (" ++ int_text n ++ txt " cuts" ++
  match g with Some k => txt ", " ++ int_text k ++ txt " active GMICs" | None => [] end ++
  match v with Some k => txt ", " ++ int_text k ++ txt " active VPCs" | None => [] end ++ txt ")".
(** The lines a reader expects: one for every bound that is known. *)
Definition when_ {A} (c : bool) (a : A) : option A := if c then Some a else None.
Definition expected (ig iv : cutinfo) (hasG hasV : bool) (b : boundinfo) (all : Q) : list (bool * entry) :=
  let known_ v := Qle_bool (Qabs v) (DBL_MAX - EPS7) in
  [(true, {| en_name := txt "LP: "; en_value := b_lp b; en_note := [] |});
   (known_ (b_root b), {| en_name := txt "Root: "; en_value := b_root b; en_note := bounds_changed (b_nroot b) |});
   (known_ (b_unstr b), {| en_name := txt "Unstr GMICs: "; en_value := b_unstr b; en_note := cuts_note (b_ngmic b) None None |});
   (known_ (b_gmic b), {| en_name := txt "GMICs: "; en_value := b_gmic b; en_note := cuts_note (b_ngmic b) (Some (ci_ag ig)) (when_ hasV (ci_ag iv)) |});
   (hasV && known_ (b_vpc b), {| en_name := txt "VPCs: "; en_value := b_vpc b; en_note := cuts_note (b_nvpc b) (when_ hasG (ci_av ig)) (Some (ci_av iv)) |});
   ((0 <? b_ngmic b + b_nlpc b)%Z, {| en_name := txt "All: "; en_value := all; en_note := cuts_note (b_ngmic b + b_nlpc b + b_nvpc b) (when_ hasG (ci_aa ig)) (when_ hasV (ci_aa iv)) |});
   (known_ (b_best b), {| en_name := txt "Disjunctive lb: "; en_value := b_best b; en_note := [] |});
   (known_ (b_worst b), {| en_name := txt "Disjunctive ub: "; en_value := b_worst b; en_note := [] |});
   (known_ (b_ip b), {| en_name := txt "IP: "; en_value := b_ip b; en_note := [] |})].
Definition expected_lines ig iv hasG hasV b all : list entry := map snd (filter fst (expected ig iv hasG hasV b all)).

Definition all_bounds (b : boundinfo) : list Q := [b_lp b; b_root b; b_unstr b; b_gmic b; b_vpc b; b_best b; b_worst b; b_ip b].
(** Not known (infinite) or of moderate size. *)
Definition moderate (v : Q) : Prop := DBL_MAX <= v \/ Qabs v <= power 100.

(** The table: ten columns of 15 characters after ten. *)
Definition column (k : nat) (row : text) : text := firstn 15 (skipn (10 + 15 * k) row).
Definition is_cell (t cell : text) : Prop := exists k, cell = t ++ blanks k.
(** What the columns hold: title and how the number is shown. *)
Definition bb_known (v : Q) : Prop := Qabs v <= BB_INF - EPS7.
Definition shown_num (v : Q) (t : text) : Prop :=
  (bb_known v -> exists w, number t w /\ Qabs (w - v) <= (1 # 2) * power (-2)) /\ (BB_INF <= v -> t = txt "'inf'") /\ (v <= - BB_INF -> t = txt "'-inf'").
Definition shown_int (z : Z) (t : text) : Prop := signed t z.
Definition columns_of (i : bbinfo) : list (text * (text -> Prop)) :=
  [(txt "Obj", shown_num (bb_obj i)); (txt "Bound", shown_num (bb_bound i)); (txt "Iters", shown_int (bb_iters i)); (txt "Nodes", shown_int (bb_nodes i));
   (txt "Root passes", shown_int (bb_root_passes i)); (txt "First cut pass", shown_num (bb_first_cut_pass i)); (txt "Last cut pass", shown_num (bb_last_cut_pass i));
   (txt "Root time", shown_num (bb_root_time i)); (txt "Last sol time", shown_num (bb_last_sol_time i)); (txt "Time", shown_num (bb_time i))].
(** A row of the table under its header. *)
Definition row_reads (header row name : text) (i : bbinfo) : Prop :=
  is_cell name (firstn 10 row) /\ forall k title shown, nth_error (columns_of i) k = Some (title, shown) ->
    is_cell title (column k header) /\ exists t, is_cell t (column k row) /\ shown t.
(** The rows asked for by the digits of BB_MODE. *)
Definition digit (k mode : Z) : Z := ((mode / 10 ^ k) mod 10)%Z.
Definition bb_rows (mode : Z) (solver : text) (no my all : summary) : list (text * bbinfo) :=
  map snd (filter fst [(negb (digit 0 mode =? 0)%Z, (solver, sm_avg no));
    (negb (digit 1 mode =? 0)%Z && (0 <? sm_num_cuts my)%Z, (solver ++ txt "V", sm_avg my));
    (negb (digit 2 mode =? 0)%Z && (0 <? sm_num_cuts all)%Z, (solver ++ txt "V+G", sm_avg all))]).
(** Numbers that fit into a column. *)
Definition nums_of (i : bbinfo) : list Q := [bb_obj i; bb_bound i; bb_first_cut_pass i; bb_last_cut_pass i; bb_root_time i; bb_last_sol_time i; bb_time i].
Definition ints_of (i : bbinfo) : list Z := [bb_iters i; bb_nodes i; bb_root_passes i].
Definition fits (F : clib) (i : bbinfo) : Prop :=
  (forall v, In v (nums_of i) -> (bb_known v \/ BB_INF <= v \/ v <= - BB_INF) /\ (bb_known v -> prints_f F 2 v /\ (length (pf_f F 2 v) <= 15)%nat)) /\
  (forall z, In z (ints_of i) -> (length (int_text z) <= 15)%nat).
