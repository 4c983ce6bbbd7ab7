(** Drawings of the partial tree: generateTreePlotString and generateTikzTreeString with its helpers
    (src/utility/vpc_debug.cpp:128-545), and what the event handler keeps for them: the numbers of the nodes, numNodes_,
    finalNodeIndices_ (src/branch/VPCEventHandler.cpp:99, 118, 162, 439-444, 506-565, 613-615, 830-832, 1303, 1548).  Texts printed on
    the terminal (TRACE), the statistics tables and the .aleks / .tex files around the text are left out; the format "%.2f" of
    objective values is an argument. *)
From Coq Require Import String.
From Verif Require Export Prelude Model.Tolerance Model.EventHandler Model.TextUtil.
From Verif Require Import Model.Names.
#[local] Open Scope string_scope.
#[local] Open Scope list_scope.
#[local] Open Scope nat_scope.

(** * Numbers of the nodes. *)
(** [u_nums], [u_pnums]: the member number of the entries of stats_ and pruned_stats_; [u_total]: numNodes_; [u_final]:
    finalNodeIndices_; [u_act]: numNodesOnTree_. *)
(** VPCEventHandler.hpp:130-205. *)
Record numst := { u_nums : list nat; u_pnums : list nat; u_total : nat; u_final : list nat; u_act : nat }.
(** VPCEventHandler.cpp:1046-1075 (initialize): no entries yet. *)
Definition num_init : numst := {| u_nums := []; u_pnums := []; u_total := 0; u_final := []; u_act := 0 |}.

(** The nodes visited by the loop of saveInformation (1286-1303): all of them, or those before the loop gives up. *)
Fixpoint save_visited (cfg : hcfg) (stats : list nodestat) (timeup : bool) (pok : nat -> bool)
    (solve : nat -> list bchange -> option Q) (i : nat) (nodes : list cnode) (status : bool) (acc : sacc) : list nat :=
  match nodes with
  | [] => []
  | nd :: r =>
      let len := Z.of_nat (List.length nodes) in
      if negb timeup && (2 * (sa_num acc + 2 * len) <=? c_max cfg)%Z then []
      else match save_node cfg stats timeup (pok i) (solve i) len nd status acc with
           | None => []
           | Some (acc1, status1) =>
               match nth_error stats (cn_num nd) with Some s => [ns_id s] | None => [] end ++
               save_visited cfg stats timeup pok solve (S i) r status1 acc1
           end
  end.
(** saveInformationFromStats visits every node (1544-1548). *)
Definition all_visited (stats : list nodestat) (nodes : list cnode) : list nat :=
  flat_map (fun nd => match nth_error stats (cn_num nd) with Some s => [ns_id s] | None => [] end) nodes.

(** The repair of a misjudged node (504-563): the pruned entry and its number move to the statistics. *)
Definition fix_nums (cfg : hcfg) (st : hst) (u : numst) : numst :=
  if negb (c_nochoose cfg) then u
  else match rev (h_stats st), rev (h_pruned st) with
       | last :: _, p :: _ =>
           if Nat.eqb (h_count2 st) (S (ns_id last)) then u
           else match rev (u_nums u), rev (u_pnums u) with
                | ln :: before, pn :: pbefore =>
                    {| u_nums := if Nat.eqb (ns_id last) (ns_id p) then rev before ++ [pn; ln] else u_nums u ++ [pn];
                       u_pnums := rev pbefore; u_total := u_total u; u_final := u_final u; u_act := u_act u |}
                | _, _ => u
                end
       | _, _ => u
       end.

(** An event with Cbc's node count at that time ([count]: getNodeCount()). *)
(** VPCEventHandler.cpp:430-1043. *)
Definition step_nums (cfg : hcfg) (st : hst) (u : numst) (a : action) (count : nat) : numst :=
  match a with
  | ATree ord timeup pok solve slo sup =>
      if h_end st || (c_max cfg <=? h_leaf st)%Z then u
      else
        let first := Nat.eqb (h_count2 st) 1 in
        let u1 := {| u_nums := if first then u_nums u ++ [count] else u_nums u; u_pnums := u_pnums u;
                     u_total := if first then 1 else u_total u; u_final := u_final u; u_act := List.length ord |} in
        match first_stats cfg (set_tree st ord) with
        | None => u1
        | Some st1 =>
            let st2 := set_leaf st1 (count_leaves cfg st1) in
            let acc0 := {| sa_terms := []; sa_num := isol_count st2; sa_leaf := h_leaf st2; sa_down := None; sa_up := None |} in
            if (c_max cfg <=? h_leaf st2)%Z || timeup
            then let final := u_final u ++ (if c_keep cfg then all_visited (h_stats st2) ord
                                            else save_visited cfg (h_stats st2) timeup pok solve 0 ord false acc0) in
                 let u2 := {| u_nums := u_nums u1; u_pnums := u_pnums u1; u_total := u_total u1; u_final := final; u_act := u_act u1 |} in
                 if c_keep cfg then u2
                 else match saveInformation cfg st2 timeup pok solve with
                      | Some (_, true) => fix_nums cfg st2 u2
                      | _ => u2
                      end
            else fix_nums cfg st2 u1
        end
  | ABranch k out =>
      match nth_error (h_tree st) k with
      | None => u
      | Some nd =>
          let created := match out with Created _ => true | _ => false end in
          let nums := if created then u_nums u ++ [count] else u_nums u in
          let back := if Nat.eqb (cn_left nd) 2 then match nth_error (u_nums u) (cn_num nd) with Some v => [v] | None => [] end else [] in
          {| u_nums := nums ++ back; u_pnums := if created then u_pnums u else u_pnums u ++ [count];
             u_total := Nat.max (u_total u) (S count); u_final := u_final u; u_act := u_act u |}
      end
  | ADrop _ | ASol _ => u
  end.

(** * What the drawings are made from. *)
(** One entry of stats_ / pruned_stats_ with number, found_integer_solution and integer_obj. *)
(** VPCEventHandler.hpp:26-60. *)
Record tstat := { t_s : nodestat; t_num : nat; t_found : bool; t_iobj : Q }.
(** [p_leaves]: getNodeIndex(0), ..., getNodeIndex(getNumNodesOnTree() - 1). *)
(** What vpc_debug.cpp:128-545 reads. *)
Record drawing := { p_stats : list tstat; p_pruned : list tstat; p_nodes : nat; p_leaves : list nat }.
(** The drawing of a state; [found], [pfound]: found_integer_solution and integer_obj of the entries. *)
(** VPCEventHandler.hpp:26-60. *)
Definition with_nums (l : list nodestat) (nums : list nat) (found : nat -> bool * Q) : list tstat :=
  map (fun x => {| t_s := fst (snd x); t_num := snd (snd x); t_found := fst (found (fst x)); t_iobj := snd (found (fst x)) |})
      (combine (seq 0 (List.length l)) (combine l nums)).
(** What vpc_debug.cpp:128-195 and 305-560 read of the handler. *)
Definition drawing_of (st : hst) (u : numst) (found pfound : nat -> bool * Q) : drawing :=
  {| p_stats := with_nums (h_stats st) (u_nums u) found; p_pruned := with_nums (h_pruned st) (u_pnums u) pfound;
     p_nodes := u_total u; p_leaves := firstn (u_act u) (u_final u) |}.

(** * generateTreePlotString, vpc_debug.cpp:128-195. *)
Definition quote : ascii := "034"%char.
(** std::to_string of a node number, vpc_debug.cpp:128-195. *)
Definition int_of (n : nat) : text := int_text (Z.of_nat n).
(** vpc_debug.cpp:152-156: one edge in Mathematica's notation. *)
Definition edge_text (from : nat) (to : text) (var : nat) : text :=
  txt "{" ++ int_of from ++ txt "->" ++ to ++ txt ", " ++ [quote] ++ int_of var ++ [quote] ++ txt "}".
(** vpc_debug.cpp:149-151, 161-163 and 179-181: a comma before every edge but the first. *)
Definition add_edge (str e : text) : text := (match str with [] => [] | _ => str ++ txt ", " end) ++ e.

(** Lines 146-158; [None]: parent_id is not an index. *)
Definition plot_explored (d : drawing) (str : option text) (s : tstat) : option text :=
  match str with
  | None => None
  | Some str =>
      if negb (Nat.eqb (ns_orig (t_s s)) (ns_id (t_s s))) then Some str
      else match ns_parent (t_s s) with
           | None => Some str
           | Some p => match nth_error (p_stats d) p with
                       | None => None
                       | Some q => Some (add_edge str (edge_text (t_num q) (int_of (t_num s)) (ns_var (t_s q))))
                       end
           end
  end.
(** Lines 161-171. *)
Definition plot_pruned (d : drawing) (str : option text) (s : tstat) : option text :=
  match str with
  | None => None
  | Some str =>
      match ns_parent (t_s s) with
      | None => None
      | Some p => match nth_error (p_stats d) p with
                  | None => None
                  | Some q => Some (add_edge str (edge_text (t_num q) (int_of (t_num s) ++ txt "X") (ns_var (t_s q))))
                  end
      end
  end.
(** Lines 174-189: one edge for every branch left, numbered from numNodes_ on. *)
Definition plot_leaf (d : drawing) (acc : option (text * nat)) (i : nat) : option (text * nat) :=
  match acc with
  | None => None
  | Some (str, k) =>
      match nth_error (p_stats d) i with
      | None => None
      | Some q => Some (fold_left (fun a _ => (add_edge (fst a) (edge_text (t_num q) (int_of (snd a)) (ns_var (t_s q))), S (snd a)))
                          (seq (ns_bi (t_s q)) (2 - ns_bi (t_s q))) (str, k))
      end
  end.
(** vpc_debug.cpp:128-195. *)
Definition generateTreePlotString (d : drawing) : option text :=
  match fold_left (plot_pruned d) (p_pruned d) (fold_left (plot_explored d) (p_stats d) (Some [])) with
  | None => None
  | Some str => match fold_left (plot_leaf d) (p_leaves d) (Some (str, p_nodes d)) with
                | None => None
                | Some (str', _) => Some (txt "TreePlot[{" ++ str' ++ txt "}, Automatic, 0, VertexLabeling -> True]")
                end
  end.

(** * generateTikzTreeString, vpc_debug.cpp:199-545. *)
(** children and locationOfChild together: rows of slots, -1 being [None].  Locations: 0 normal, 1 integer, 2 pruned, 3 unexplored,
    4 found during strong branching.  [z_sb]: numSBFeasNodes; [z_total]: numNodesTotal. *)
(** vpc_debug.cpp:339-352. *)
Definition slot := option (nat * nat).
(** vpc_debug.cpp:339-352: the vectors and counters of generateTikzTreeString. *)
Record tikz := { z_ch : list (list slot); z_var : list Z; z_obj : list Q; z_sb : nat; z_total : nat; z_feas : nat; z_inf : nat }.
(** vector::operator[] assignment; [None]: outside the vector (undefined behaviour). *)
Fixpoint set_nth {A} (k : nat) (a : A) (l : list A) : option (list A) :=
  match l, k with
  | [], _ => None
  | _ :: r, O => Some (a :: r)
  | b :: r, S k' => match set_nth k' a r with Some r' => Some (b :: r') | None => None end
  end.
(** setChildForTikzTreeString, lines 287-303; [None]: outside a vector. *)
Definition set_child (ch : list (list slot)) (loc parent child_ind child : nat) : option (list (list slot)) :=
  match nth_error ch parent with
  | None => None
  | Some row =>
      match nth_error row child_ind with
      | None => None
      | Some (Some _) => set_nth parent (row ++ [Some (child, loc)]) ch
      | Some None => match set_nth child_ind (Some (child, loc)) row with
                     | None => None
                     | Some row' => set_nth parent row' ch
                     end
      end
  end.
(** vpc_debug.cpp:346-352: the three slots of a node start at -1. *)
Definition empty_row : list slot := [None; None; None].

(** Lines 370-384 and 425-438: a child for an integer solution found during strong branching. *)
Definition add_sb (numNodes : nat) (z : tikz) (node : nat) (iobj : Q) : option tikz :=
  match set_child (z_ch z ++ [empty_row]) 4 node 1 (numNodes + z_sb z) with
  | None => None
  | Some ch => Some {| z_ch := ch; z_var := z_var z ++ [(-1)%Z]; z_obj := z_obj z ++ [iobj]; z_sb := S (z_sb z); z_total := z_total z;
                       z_feas := z_feas z; z_inf := z_inf z |}
  end.
(** vpc_debug.cpp:354-404 and 407-445: branching variable and objective of a node are stored. *)
Definition put (z : tikz) (ch : list (list slot)) (node : nat) (var : Z) (obj : Q) : option tikz :=
  match set_nth node var (z_var z), set_nth node obj (z_obj z) with
  | Some vs, Some os => Some {| z_ch := ch; z_var := vs; z_obj := os; z_sb := z_sb z; z_total := z_total z; z_feas := z_feas z; z_inf := z_inf z |}
  | _, _ => None
  end.
(** vpc_debug.cpp:361 and 388-403: slot of the down and of the up child. *)
Definition side (w : Z) : nat := if (w <=? 0)%Z then 0 else 2.

(** Lines 354-385. *)
Definition tikz_explored (d : drawing) (z : option tikz) (s : tstat) : option tikz :=
  match z with
  | None => None
  | Some z =>
      if negb (Nat.eqb (ns_orig (t_s s)) (ns_id (t_s s))) then Some z
      else match ns_parent (t_s s) with
           | None => Some z
           | Some p =>
               match nth_error (p_stats d) p with
               | None => None
               | Some q =>
                   let same := isVal (ns_obj (t_s s)) (t_iobj s) EPS7 in
                   let loc := if t_found s && same then 1 else 0 in
                   match set_child (z_ch z) loc (t_num q) (side (ns_way (t_s q))) (t_num s) with
                   | None => None
                   | Some ch =>
                       match put z ch (t_num s) (Z.of_nat (ns_var (t_s q))) (ns_obj (t_s s)) with
                       | None => None
                       | Some z1 => if t_found s && negb same then add_sb (p_nodes d) z1 (t_num s) (t_iobj s) else Some z1
                       end
                   end
               end
           end
  end.
(** Lines 388-403. *)
Definition tikz_branch (q : tstat) (z : option tikz) (b : nat) : option tikz :=
  match z with
  | None => None
  | Some z =>
      let first := (ns_way (t_s q) <=? 0)%Z in
      let tmp := if Nat.eqb b 0 then first else negb first in
      match set_child (z_ch z) 3 (t_num q) (if tmp then 2 else 0) (z_total z) with
      | None => None
      | Some ch => Some {| z_ch := ch; z_var := z_var z ++ [Z.of_nat (ns_var (t_s q))]; z_obj := z_obj z ++ [(-1)%Q]; z_sb := z_sb z;
                           z_total := S (z_total z); z_feas := z_feas z; z_inf := z_inf z |}
      end
  end.
(** vpc_debug.cpp:386-404: the branches left of an active node. *)
Definition tikz_leaf (d : drawing) (z : option tikz) (i : nat) : option tikz :=
  match nth_error (p_stats d) i with
  | None => None
  | Some q => fold_left (tikz_branch q) (seq (ns_bi (t_s q)) (2 - ns_bi (t_s q))) z
  end.
(** Lines 407-445; the assertion of line 408. *)
Definition bump (z : tikz) (feas : bool) : tikz :=
  {| z_ch := z_ch z; z_var := z_var z; z_obj := z_obj z; z_sb := z_sb z; z_total := z_total z;
     z_feas := if feas then S (z_feas z) else z_feas z; z_inf := if feas then z_inf z else S (z_inf z) |}.
(** vpc_debug.cpp:407-445. *)
Definition tikz_pruned (d : drawing) (z : option tikz) (s : tstat) : option tikz :=
  match z with
  | None => None
  | Some z =>
      match nth_error (z_ch z) (t_num s) with
      | Some (None :: None :: _) =>
          match ns_parent (t_s s) with
          | None => None
          | Some p =>
              match nth_error (p_stats d) p with
              | None => None
              | Some q =>
                  let loc := if t_found s then (if Qeq_bool (ns_obj (t_s s)) (t_iobj s) then 1 else 0) else 2 in
                  match set_child (z_ch z) loc (t_num q) (side (ns_way (t_s q))) (t_num s) with
                  | None => None
                  | Some ch =>
                      match put z ch (t_num s) (Z.of_nat (ns_var (t_s q))) (ns_obj (t_s s)) with
                      | None => None
                      | Some z1 => let z2 := bump z1 (t_found s) in
                                   if Nat.eqb loc 0 then add_sb (p_nodes d) z2 (t_num s) (t_iobj s) else Some z2
                      end
                  end
              end
          end
      | _ => None
      end
  end.

(** Lines 448-467, without active nodes: a normal child that is a leaf is drawn as pruned.  [leaf]: isLeafNode. *)
Definition dangling_row (leaf : nat -> bool) (row : list slot) : list slot :=
  map (fun s => match s with Some (c, 0%nat) => if leaf c then Some (c, 2%nat) else s | _ => s end) row.
(** The comparison of a slot with -1 (vpc_debug.cpp:448-467). *)
Definition is_none {A} (s : option A) : bool := match s with None => true | Some _ => false end.
(** vpc_debug.cpp:450-466: one node. *)
Definition dangling_step (acc : list (list slot) * (nat -> bool)) (i : nat) : list (list slot) * (nat -> bool) :=
  let (ch, leaf) := acc in
  match nth_error ch i with
  | None => acc
  | Some row => (match set_nth i (dangling_row leaf row) ch with Some ch' => ch' | None => ch end,
                 if forallb is_none row then fun j => if Nat.eqb j i then true else leaf j else leaf)
  end.
(** vpc_debug.cpp:448-467. *)
Definition dangling (numNodes : nat) (ch : list (list slot)) : list (list slot) :=
  fst (fold_left dangling_step (rev (seq 0 numNodes)) (ch, fun _ => false)).

(** vpc_debug.cpp:305-467: all vectors. *)
Definition tikz_build (d : drawing) (root_obj : Q) : option tikz :=
  let z0 := {| z_ch := repeat empty_row (p_nodes d); z_var := match p_nodes d with O => [] | S k => (-1)%Z :: repeat 0%Z k end;
               z_obj := match p_nodes d with O => [] | S k => root_obj :: repeat 0%Q k end; z_sb := 0; z_total := p_nodes d; z_feas := 0; z_inf := 0 |} in
  match p_nodes d with
  | O => None
  | _ => match fold_left (tikz_pruned d) (p_pruned d) (fold_left (tikz_leaf d) (p_leaves d) (fold_left (tikz_explored d) (p_stats d) (Some z0))) with
         | None => None
         | Some z => Some (match p_leaves d with
                           | [] => {| z_ch := dangling (p_nodes d) (z_ch z); z_var := z_var z; z_obj := z_obj z; z_sb := z_sb z; z_total := z_total z;
                                      z_feas := z_feas z; z_inf := z_inf z |}
                           | _ => z
                           end)
         end
  end.

(** generateTikzTreeStringHelper, lines 208-285.  [fuel]: depth of the recursion; [None]: outside a vector. *)
Definition spaces (n : nat) : text := repeat " "%char n.
(** vpc_debug.cpp:208-285: the text of one node. *)
Definition node_text (fmt : Q -> text) (print_obj : bool) (z : tikz) (node depth child_ind loc : nat) : option text :=
  let obj := match nth_error (z_obj z) node with
             | Some o => if print_obj then txt "/" ++ [quote] ++ fmt o ++ [quote] else []
             | None => []
             end in
  let colour := match loc with 1 | 4 => txt "green!75!black" | 2 => txt "red" | 3 => txt "blue" | _ => [] end in
  let edge := if Nat.eqb node 0 then Some []
              else match (if Nat.eqb loc 4 then Some (txt ">dashed")
                          else match nth_error (z_var z) node with
                               | None => None
                               | Some v => Some (txt ">" ++ [quote] ++ txt "{" ++ int_text v ++ txt "}" ++ [quote] ++
                                                 (if Nat.eqb child_ind 0 then txt ", >swap" else []))
                               end) with
                   | None => None
                   | Some t => Some ((if Nat.ltb 0 loc then txt ", " else []) ++ t)
                   end in
  match edge with
  | None => None
  | Some e =>
      let info := Nat.ltb 0 loc || negb (Nat.eqb node 0) in
      Some (spaces (2 * (depth + 1)) ++ int_of node ++ obj ++ (if info then txt " [" else []) ++ colour ++ e ++ (if info then txt "]" else []))
  end.
(** The character written by "\n" in vpc_debug.cpp:208-285. *)
Definition newline : ascii := "010"%char.
(** vpc_debug.cpp:208-285 with its recursion. *)
Fixpoint tikz_text (fuel : nat) (fmt : Q -> text) (print_obj : bool) (numNodes : nat) (z : tikz) (node depth child_ind loc : nat) : option text :=
  match fuel with
  | O => None
  | S f =>
      match node_text fmt print_obj z node depth child_ind loc with
      | None => None
      | Some t =>
          let row := if Nat.ltb node numNodes && negb (Nat.eqb loc 4) then match nth_error (z_ch z) node with Some r => r | None => [] end else [] in
          let kids := fold_left
            (fun (acc : option (text * bool)) (x : nat * slot) =>
               match acc, snd x with
               | None, _ => None
               | Some a, None => Some a
               | Some (str, added), Some (c, l) =>
                   match tikz_text f fmt print_obj numNodes z c (S depth) (fst x) l with
                   | None => None
                   | Some ct => Some (str ++ (if added then txt "," else txt " -- {") ++ [newline] ++ ct, true)
                   end
               end)
            (combine (seq 0 (List.length row)) row) (Some ([], false)) in
          match kids with
          | None => None
          | Some (str, added) =>
              Some (t ++ str ++ (if added then [newline] ++ spaces (2 * (depth + 1)) ++ txt "}" else []) ++
                    (if Nat.eqb node 0 then [newline] else []))
          end
      end
  end.
(** The text of the graph, lines 470-474. *)
Definition tikz_graph (d : drawing) (fmt : Q -> text) (temp : Z) (root_obj : Q) : option text :=
  match tikz_build d root_obj, nth_error (p_stats d) 0 with
  | Some z, Some r => tikz_text (S (p_nodes d)) fmt (0 <=? temp)%Z (p_nodes d) z 0 0 0 (if t_found r then 1 else 0)
  | _, _ => None
  end.
(** The numbers in the caption, lines 477-517: leafs according to DISJ_TERMS, nodes, active nodes, feasible leafs, integer-feasible
    leafs, pruned nodes.  [leaf]: getNumLeafNodes(). *)
Definition caption_numbers (d : drawing) (z : tikz) (disj_terms leaf : Z) : list Z :=
  [(- disj_terms)%Z; Z.of_nat (z_total z); Z.of_nat (List.length (p_leaves d));
   (if (leaf =? 0)%Z then Z.of_nat (z_total z) - Z.of_nat (p_nodes d) + Z.of_nat (z_feas z) else leaf)%Z; Z.of_nat (z_feas z); Z.of_nat (z_inf z)].
