(** Settings of LP solvers (src/utility/SolverHelper.cpp 84-175, src/disjunction/PartialBBDisjunction.cpp 148-166) and loading a file through the
    library (src/utility/VPCSolverInterface.cpp 117-158). *)
From Verif Require Export Prelude Model.SolverHelper.
#[local] Open Scope Z_scope.

(** A solver's settings: is it an OsiClpSolverInterface; log levels of Osi's and Clp's message handlers; Clp's time limit; special options and
    more special options (32-bit ints used as sets of bits); iteration limit of hot starts; presolve in initialSolve and in resolve. *)
Record settings := { y_clp : bool; y_log : Z; y_clplog : Z; y_time : Q; y_special : Z; y_more : Z; y_hot : Z; y_pre_initial : bool; y_pre_resolve : bool }.
(** SolverHelper.cpp:123-131 [setTimeLimit]; [None]: undefined (dynamic_cast of a pointer to another class gives NULL, it does not throw). *)
Definition setTimeLimit (t : Q) (s : settings) : option settings :=
  if y_clp s then Some {| y_clp := true; y_log := y_log s; y_clplog := y_clplog s; y_time := t; y_special := y_special s; y_more := y_more s; y_hot := y_hot s;
                          y_pre_initial := y_pre_initial s; y_pre_resolve := y_pre_resolve s |}
  else None.
(** SolverHelper.cpp:106-121 [setLPSolverParameters]. *)
Definition setLPSolverParameters (verbosity : Z) (t : Q) (s : settings) : option settings :=
  if y_clp s then
    setTimeLimit t (if verbosity =? 0 then {| y_clp := y_clp s; y_log := 0; y_clplog := 0; y_time := y_time s; y_special := y_special s; y_more := y_more s;
                                              y_hot := y_hot s; y_pre_initial := y_pre_initial s; y_pre_resolve := y_pre_resolve s |} else s)
  else None.
(** SolverHelper.cpp:151-154 [setupClpForStrongBranching]; also PartialBBDisjunction.cpp:152-155. *)
Definition setupClpForStrongBranching (hot : Z) (s : settings) : option settings :=
  if y_clp s then Some {| y_clp := true; y_log := y_log s; y_clplog := y_clplog s; y_time := y_time s; y_special := 16; y_more := y_more s; y_hot := hot;
                          y_pre_initial := y_pre_initial s; y_pre_resolve := y_pre_resolve s |}
  else None.
(** SolverHelper.cpp:161-175 [setupClpForCbc]; line 169-170: 256 is ADDED to the bits; [None]: also if the sum is no int. *)
Definition setupClpForCbc (verbosity : Z) (t : Q) (hot : Z) (s : settings) : option settings :=
  match setLPSolverParameters verbosity t s with
  | None => None
  | Some s1 =>
      match setupClpForStrongBranching hot {| y_clp := y_clp s1; y_log := y_log s1; y_clplog := y_clplog s1; y_time := y_time s1; y_special := y_special s1; y_more := y_more s1;
                                              y_hot := y_hot s1; y_pre_initial := false; y_pre_resolve := false |} with
      | None => None
      | Some s2 =>
          if 2147483647 <? y_more s2 + 256 then None
          else Some {| y_clp := y_clp s2; y_log := y_log s2; y_clplog := y_clplog s2; y_time := y_time s2; y_special := y_special s2; y_more := y_more s2 + 256;
                       y_hot := y_hot s2; y_pre_initial := y_pre_initial s2; y_pre_resolve := y_pre_resolve s2 |}
      end
  end.
(** PartialBBDisjunction.cpp:148-166: the same steps written out, with the largest numbers as limits; [big]: the largest double. *)
Definition prepareTreeSolver (big : Q) (verbosity : Z) (s : settings) : option settings := setupClpForCbc verbosity big 2147483647 s.
(** What a program does with one solver. *)
Inductive sop := OLimit (t : Q) | OSet (verbosity : Z) (t : Q) | OStrong (hot : Z) | OCbc (verbosity : Z) (t : Q) (hot : Z).
(** One call. *)
(** SolverHelper.cpp:106-175. *)
Definition sstep (s : settings) (o : sop) : option settings :=
  match o with
  | OLimit t => setTimeLimit t s
  | OSet v t => setLPSolverParameters v t s
  | OStrong h => setupClpForStrongBranching h s
  | OCbc v t h => setupClpForCbc v t h s
  end.
(** Several calls. *)
(** SolverHelper.cpp:106-175. *)
Fixpoint srun (s : settings) (l : list sop) : option settings :=
  match l with [] => Some s | o :: r => match sstep s o with None => None | Some s' => srun s' r end end.

(** VPCSolverInterface.cpp:117-158 [load]: the value returned by parseFilename is not looked at; where it fails the extension is empty or
    what it was set to.  The file need not exist. *)
Definition load_file (readLp readMps : reader) (filename : text) : loaded :=
  let ext := match parseFilename filename with Parsed _ _ e => e | ParseErr (Some e) => e | ParseErr None => [] end in
  match read_instance readLp readMps ext filename with
  | Loaded P => Loaded (flipObj 1 P)
  | r => r
  end.
