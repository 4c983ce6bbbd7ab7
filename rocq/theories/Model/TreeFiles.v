(** The files with drawings of the partial tree: the end of generateTreePlotString and of generateTikzTreeString
    (src/utility/vpc_debug.cpp:133-206, 472-557) and the calls in src/disjunction/PartialBBDisjunction.cpp:211-232 (compiled with TRACE)
    for the trees of the rounds.  Left out: the copies of the texts on the terminal.  Names have no NUL characters (c_str() is the text).
    The printed forms of doubles and ints are arguments ([f3]: "%.3f", [d3]: "%03d"), as in Model/TreeDrawing.v. *)
From Coq Require Import String.
From Verif Require Export Prelude Model.TextUtil.
From Verif Require Import Model.Tolerance Model.EventHandler Model.Names Model.Parameters Model.TreeDrawing.
#[local] Open Scope string_scope.
#[local] Open Scope list_scope.
#[local] Open Scope Z_scope.

(** The directory: name to contents ([None]: no such file).  fopen(..., "a") / fopen(..., "w") with fprintf and fclose. *)
(** vpc_debug.cpp:194-201, 512-552. *)
Definition store := text -> option text.
(** fopen "w" (external), vpc_debug.cpp:533. *)
Definition overwrite (name c : text) (fs : store) : store := fun n => if text_eqb n name then Some c else fs n.
(** fopen "a" (external), vpc_debug.cpp:196, 516. *)
Definition append_to (name c : text) (fs : store) : store := fun n => if text_eqb n name then Some (match fs name with Some o => o | None => [] end ++ c) else fs n.

(** "\n". *)
(** vpc_debug.cpp:133-557. *)
Definition eol : text := [newline].
(** Lines of a text. *)
(** vpc_debug.cpp:328-337, 539-551. *)
Definition lines (l : list string) : text := concat (map (fun s => txt s ++ eol) l).

(** vpc_debug.cpp:328-335. *)
Definition figure_begin : text :=
  lines ["\begin{figure}[htp!]"; "\centering"; "\makebox[\textwidth][c]{";
         "\begin{tikzpicture} [tree layout, scale = 0.5, font=\tiny\bfseries]"; "\graph [";
         "%  nodes={inner sep=0pt, minimum size=2.5pt, circle, fill, draw}, empty nodes,";
         "  edges={style={pos=0.5, inner sep=0.5pt, font=\tiny}}"; "] {"].
(** vpc_debug.cpp:336. *)
Definition figure_close : text := lines ["};"; "\end{tikzpicture}"; "}"].
(** vpc_debug.cpp:337. *)
Definition figure_end : text := lines ["\end{figure}"].

(** What the caption is made of: FILENAME, the strategy the tree was made with and the one given as argument, the numbers of
    [caption_numbers], the objective of the original solver, branching_lb. *)
(** vpc_debug.cpp:468-503. *)
Record caption_data := { q_name : text; q_strategy : Z; q_orig : Z; q_terms : Z; q_total : Z; q_active : Z; q_leafs : Z; q_feas : Z; q_inf : Z; q_obj : Q; q_lb : Q }.
(** vpc_debug.cpp:468-503.  [None]: -1 * DISJ_TERMS is no int. *)
Definition caption (f3 : Q -> text) (d3 : Z -> text) (c : caption_data) : option text :=
  if (q_terms c =? - 2147483648) then None
  else Some (
    lines ["\caption{"] ++ txt "  \detokenize{" ++ q_name c ++ txt "}:" ++
    (if 0 <? q_active c
     then txt " Partial tree" ++ txt " (used for cut generation; generated with strategy " ++ d3 (q_orig c) ++ txt " and " ++ int_text (- q_terms c) ++ txt " leafs)"
     else txt " Optimal tree" ++ txt " from strategy " ++ d3 (q_strategy c) ++ txt " (partial tree: strategy " ++ d3 (q_orig c) ++ txt " and " ++
          int_text (- q_terms c) ++ txt " leafs).") ++
    txt "\\" ++ eol ++ txt "  Initial objective value: " ++ f3 (q_obj c) ++ txt "." ++
    (if (q_active c =? 0) then txt " Branching lower bound: " ++ f3 (q_lb c) ++ txt "." else []) ++
    txt "\\" ++ eol ++ txt "  Nodes: " ++ int_text (q_total c) ++ txt "." ++ txt "   Active nodes: " ++ int_text (q_active c) ++ txt "." ++
    txt "   Feasible leafs: " ++ int_text (q_leafs c) ++ txt "." ++ txt "   Integer-feasible leafs: " ++ int_text (q_feas c) ++ txt "." ++
    txt "   Pruned nodes: " ++ int_text (q_inf c) ++ txt "." ++ eol ++ lines ["}"]).
(** The caption of a drawing: the six numbers. *)
(** vpc_debug.cpp:468-503. *)
Definition caption_of (d : drawing) (z : tikz) (name : text) (strategy orig terms leaf : Z) (obj lb : Q) : caption_data :=
  {| q_name := name; q_strategy := strategy; q_orig := orig; q_terms := terms; q_total := Z.of_nat (z_total z); q_active := Z.of_nat (List.length (p_leaves d));
     q_leafs := if (leaf =? 0) then Z.of_nat (z_total z) - Z.of_nat (p_nodes d) + Z.of_nat (z_feas z) else leaf;
     q_feas := Z.of_nat (z_feas z); q_inf := Z.of_nat (z_inf z); q_obj := obj; q_lb := lb |}.
(** The whole figure, vpc_debug.cpp:328-506. *)
Definition figure (graph cap : text) : text := figure_begin ++ graph ++ figure_close ++ cap ++ figure_end.

(** vpc_debug.cpp:539-551. *)
Definition tex_file (str : text) : text :=
  lines ["% !TEX TS-program = lualatex"; "\documentclass[11pt,landscape]{article}"; "\usepackage[margin=1in]{geometry}"; "\usepackage[T1]{fontenc}";
         "\usepackage{caption}"; "\usepackage{tikz}"; "\usetikzlibrary{graphs, positioning, fit, quotes}"; "\usetikzlibrary{graphdrawing}";
         "\usegdlibrary{trees}"; "\begin{document}"] ++ str ++ eol ++ lines ["\end{document}"].
(** vpc_debug.cpp:522-529; [tables]: the two tables of node statistics (Model/NodeTable.v). *)
Definition aleks_entry (name : text) (terms : Z) (str tables : text) : text :=
  txt "## Tree for " ++ name ++ txt " with vpc_depth = " ++ int_text terms ++ txt " ##" ++ eol ++ str ++ eol ++ tables ++ eol.

(** Files saved, exit(1) with the files as they are then, undefined behaviour. *)
(** vpc_debug.cpp:512-552. *)
Inductive outcome := Wrote (fs : store) | Exited (fs : store) | Undefined.
(** vpc_debug.cpp:512-552.  [openable]: fopen succeeds. *)
Definition save_tikz (openable : text -> bool) (stub name : text) (terms : Z) (str tables : text) (fs : store) : outcome :=
  match stub with
  | [] => Wrote fs
  | _ =>
      let aleks := stub ++ txt ".aleks" in
      if negb (openable aleks) then Exited fs
      else let fs1 := append_to aleks (aleks_entry name terms str tables) fs in
           let tex := stub ++ txt ".tex" in
           if negb (openable tex) then Exited fs1 else Wrote (overwrite tex (tex_file str) fs1)
  end.
(** vpc_debug.cpp:194-202 [generateTreePlotString]: the file is not checked; fprintf to a null pointer is undefined. *)
Definition save_plot (openable : text -> bool) (name str tables : text) (save : bool) (fs : store) : outcome :=
  if negb save then Wrote fs
  else let file := name ++ txt "-Tree.aleks" in
       if negb (openable file) then Undefined else Wrote (append_to file (str ++ eol ++ tables ++ eol) fs).

(** One tree: the round it is prepared in, TEMP, DISJ_TERMS, the figure and the tables. *)
(** PartialBBDisjunction.cpp:211-232. *)
Record tree_job := { j_round : Z; j_temp : Z; j_terms : Z; j_figure : text; j_tables : text }.
(** PartialBBDisjunction.cpp:216-218: the value returned by parseFilename is not looked at. *)
Definition stub_of (name : text) (round : Z) : text :=
  match parseFilename name with
  | Parsed dir inst _ => dir ++ txt "/" ++ inst
  | ParseErr _ => txt "/"
  end ++ txt "-round" ++ int_text round.
(** PartialBBDisjunction.cpp:211-232 without the two options that end the call: one tree. *)
Definition draw_tree (openable : text -> bool) (name : text) (j : tree_job) (fs : store) : outcome :=
  if use_temp_option (Z.abs (j_temp j)) GEN_TIKZ_STRING
  then save_tikz openable (stub_of name (j_round j)) name (j_terms j) (j_figure j) (j_tables j) fs
  else Wrote fs.
(** The trees of a run, one after the other (CglVPC.cpp:303-341, Disjunction.cpp:436-452, main.cpp:464-834). *)
Fixpoint draw_trees (openable : text -> bool) (name : text) (js : list tree_job) (fs : store) : outcome :=
  match js with
  | [] => Wrote fs
  | j :: r => match draw_tree openable name j fs with Wrote fs' => draw_trees openable name r fs' | o => o end
  end.
