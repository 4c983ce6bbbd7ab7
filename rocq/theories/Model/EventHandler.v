(** The event handler that records a partial branch-and-bound tree: src/branch/VPCEventHandler.cpp,
    include/VPCEventHandler.hpp, and PartialBBDisjunction::prepareDisjunction
    (src/disjunction/PartialBBDisjunction.cpp).  Cbc itself is external: the sequence of nodes it picks, the
    children it creates or prunes, the nodes it drops and the solutions it finds are the actions of a run;
    the answers of linear programs solved while saving are arguments. *)
From Verif Require Export Prelude Model.Tolerance Model.LP Model.Disjunction.

(** NodeStatistics, VPCEventHandler.hpp:60-90.  Left out: number, depth, integer_obj, status, the text
    changed_bounds.  [ns_bval] is the one of lb / ub that the branch sets (VPCEventHandler.cpp:111-113):
    lb if way > 0, otherwise ub; the other one is never read.  parent_id = -1 is [None]. *)
Record nodestat := { ns_id : nat; ns_orig : nat; ns_parent : option nat; ns_var : nat; ns_way : Z;
                     ns_bi : nat; ns_bval : Q; ns_obj : Q; ns_changes : list bchange }.

(** A Cbc node on the tree (external: CbcNode, CbcNodeInfo, OsiTwoWayBranchingObject): node number, number
    of branches left (branchIndex = 2 - left), branching variable and value, whether the first branch is
    up, the code used for "down" (0 in Osi branching objects, -1 in Cbc ones, VPCEventHandler.cpp:53),
    the node's bounds, objective and number of its parent. *)
Record cnode := { cn_num : nat; cn_left : nat; cn_var : nat; cn_value : Q; cn_up : bool; cn_dcode : Z;
                  cn_lo : nat -> option Q; cn_hi : nat -> option Q; cn_obj : Q; cn_parent : option nat }.

(** The branch of a node that is still to be explored first (CbcNode::way, firstBranch / !firstBranch,
    VPCEventHandler.cpp:60-75). *)
Definition cur_up (nd : cnode) : bool := if Nat.eqb (cn_left nd) 2 then cn_up nd else negb (cn_up nd).
(** CbcNode::way (external): the code of the branch, as read at VPCEventHandler.cpp:60-75. *)
Definition way_code (nd : cnode) (up : bool) : Z := if up then 1%Z else cn_dcode nd.
(** ceil / floor of the branching value, VPCEventHandler.cpp:112-113. *)
Definition branch_val (v : Q) (up : bool) : Q := inject_Z (if up then Qceiling v else Qfloor v).

(** isVal of two bounds; infinite bounds are the same double. *)
(** VPCEventHandler.cpp:283-312. *)
Definition isValB (a b : option Q) : bool :=
  match a, b with
  | Some p, Some q => isVal p q EPS7
  | None, None => true
  | _, _ => false
  end.

(** changedBounds, VPCEventHandler.cpp:283-312.  A bound relaxed to infinity has no value here and is left
    out; node bounds are never looser than the original ones. *)
Definition changed_entry (b : Z) (new old : option Q) (j : nat) : list bchange :=
  match new with
  | Some v => if isValB new old then [] else [{| bc_var := j; bc_bound := b; bc_val := v |}]
  | None => []
  end.
(** VPCEventHandler.cpp:283-312: the loop over all columns. *)
Definition changedBounds (n : nat) (lo up olo oup : nat -> option Q) : list bchange :=
  flat_map (fun j => changed_entry 0 (lo j) (olo j) j ++ changed_entry 1 (up j) (oup j) j) (seq 0 n).

(** setNodeStatistics, VPCEventHandler.cpp:37-136.  [slo], [sup]: bounds of the model's solver; [None]: the
    assertion at line 131 fails. *)
Definition setNodeStatistics (n : nat) (olo oup : nat -> option Q) (stats : list nodestat) (nd : cnode)
    (count2 : nat) (will_create : bool) (slo sup : nat -> option Q) : option nodestat :=
  let bi := (2 - cn_left nd)%nat in
  let id := if Nat.eqb bi 0 then cn_num nd else (count2 + (if will_create then 1 else 0))%nat in
  let s := {| ns_id := id; ns_orig := cn_num nd; ns_parent := cn_parent nd; ns_var := cn_var nd;
              ns_way := way_code nd (cur_up nd); ns_bi := bi;
              ns_bval := branch_val (cn_value nd) (cur_up nd); ns_obj := cn_obj nd;
              ns_changes := if Nat.eqb bi 0 then changedBounds n slo sup olo oup else [] |} in
  match rev stats with
  | [] => Some s
  | l :: _ => if Nat.eqb id (S (ns_id l)) then Some s else None
  end.

(** setPrunedNodeStatistics, VPCEventHandler.cpp:145-193.  [integ]: pruned by integrality, then the
    solver's bounds are recorded.  variable and way stay at their defaults (they are only filled in for
    printing, lines 853-857). *)
Definition setPrunedNodeStatistics (n : nat) (olo oup : nat -> option Q) (parent : cnode) (count2 : nat)
    (integ : bool) (slo sup : nat -> option Q) (objv : Q) : nodestat :=
  {| ns_id := count2; ns_orig := count2; ns_parent := Some (cn_num parent); ns_var := 0; ns_way := 0;
     ns_bi := 0; ns_bval := 0; ns_obj := objv;
     ns_changes := if integ then changedBounds n slo sup olo oup else [] |}.

(** State of handler and Cbc.  [h_lo]/[h_up]: originalLB_/originalUB_; [h_count2]: getNodeCount2();
    [h_leaf]: numLeafNodes_; [h_isol]: savedSolution_ (None = empty); [h_end]: reachedEnd_;
    [h_disj], [h_down], [h_upb]: the owner's disjunction and root.boundD / root.boundU. *)
(** VPCEventHandler.hpp:130-205. *)
Record hst := { h_lo : nat -> option Q; h_up : nat -> option Q; h_stats : list nodestat;
                h_pruned : list nodestat; h_tree : list cnode; h_count2 : nat; h_leaf : Z;
                h_isol : option (nat -> Q); h_end : bool; h_disj : disj;
                h_down : option Q; h_upb : option Q }.
(** Parameters: number of columns, maxNumLeafNodes_, PARTIAL_BB_KEEP_PRUNED_NODES (= keepPrunedNodes_,
    PartialBBDisjunction.cpp:177), whether the model has no choose method (VPCEventHandler.cpp:509). *)
Record hcfg := { c_n : nat; c_max : Z; c_keep : bool; c_nochoose : bool }.

(** What saving builds: the terms, num_terms, numLeafNodes_ and the root bounds. *)
(** VPCEventHandler.cpp:1280-1330 and 1453-1607. *)
Record sacc := { sa_terms : list termdata; sa_num : Z; sa_leaf : Z; sa_down : option Q; sa_up : option Q }.

(** Which side of the root split?  VPCEventHandler.cpp:1202-1225; [None]: read outside the vector or endless
    loop.  true = down. *)
Fixpoint root_side (stats : list nodestat) (fuel id : nat) : option bool :=
  match fuel with
  | O => None
  | S f =>
      match nth_error stats id with
      | None => None
      | Some s =>
          match ns_parent s with
          | Some p => root_side stats f p
          | None => match nth_error stats 0 with
                    | None => None
                    | Some r => let down := (ns_way r <=? 0)%Z in
                                Some (if Nat.eqb id 0 then down else negb down)
                    end
          end
      end
  end.

(** The bound changes stored in a term, VPCEventHandler.cpp:1143-1150. *)
Definition term_changes (o : nodestat) (orig var : nat) (way : Z) (bval : Q) : list bchange :=
  (if Nat.eqb orig 0 then [] else ns_changes o) ++
  [{| bc_var := var; bc_bound := if (way =? 1)%Z then 0 else 1; bc_val := bval |}].

(** VPCEventHandler.cpp:1227-1231: lessThanVal(obj, bound), an infinite bound being larger than anything. *)
Definition lower_bound_to (b : option Q) (v : Q) : option Q :=
  match b with
  | None => Some v
  | Some q => if lessThanVal v q EPS7 then Some v else Some q
  end.

(** setupDisjunctiveTerm and setupDisjunctiveTermFromStats, VPCEventHandler.cpp:1113-1241.  [ans]: optimal
    value of the term's linear program, [None] if not solved to optimality (or no solver given).  Names and
    warm-start bases are left out. *)
Definition setup_term (keep : bool) (stats : list nodestat) (orig var : nat) (way : Z) (bval : Q)
    (ans : option Q) (acc : sacc) : option sacc :=
  match nth_error stats orig with
  | None => None
  | Some o =>
      if match ans with Some _ => true | None => keep end
      then let v := match ans with Some q => q | None => ns_obj o end in
           let t := {| td_obj := Some v; td_changes := term_changes o orig var way bval;
                       td_feasible := match ans with Some _ => true | None => false end; td_ineqs := [] |} in
           match root_side stats (S (length stats)) orig with
           | None => None
           | Some down =>
               Some {| sa_terms := sa_terms acc ++ [t]; sa_num := (sa_num acc + 1)%Z; sa_leaf := sa_leaf acc;
                       sa_down := if down then lower_bound_to (sa_down acc) v else sa_down acc;
                       sa_up := if down then sa_up acc else lower_bound_to (sa_up acc) v |}
           end
      else Some {| sa_terms := sa_terms acc; sa_num := sa_num acc; sa_leaf := (sa_leaf acc - 1)%Z;
                   sa_down := sa_down acc; sa_up := sa_up acc |}
  end.

(** One node of the loop of saveInformation, VPCEventHandler.cpp:1293-1451.  [len]: numNodesOnTree_ - tmp_ind;
    [pok]: warm start accepted and parent problem solved (otherwise exit).  [solve] is given the bound
    changes of the term.  Objective mismatches only produce warnings (EXIT_ON_OBJECTIVE_MISMATCH is not
    defined).  Depth statistics are left out. *)
Definition save_node (cfg : hcfg) (stats : list nodestat) (timeup pok : bool)
    (solve : list bchange -> option Q) (len : Z) (nd : cnode) (status : bool) (acc : sacc)
    : option (sacc * bool) :=
  match nth_error stats (cn_num nd) with
  | None => None
  | Some s0 =>
      match nth_error stats (ns_id s0) with
      | None => None
      | Some s =>
          match nth_error stats (ns_orig s) with
          | None => None
          | Some o =>
              if negb pok then None
              else
                let way := ns_way s in
                let bval := ns_bval s in
                match setup_term (c_keep cfg) stats (ns_orig s) (ns_var s) way bval
                        (solve (term_changes o (ns_orig s) (ns_var s) way bval)) acc with
                | None => None
                | Some acc1 =>
                    let status1 := status || (negb timeup && (2 * (sa_num acc1 + 2 * len - 1) <=? c_max cfg)%Z) in
                    if negb status1 && Nat.eqb (ns_bi s) 0
                    then let way2 := if (way <=? 0)%Z then 1%Z else 0%Z in
                         let bval2 := if (way2 <=? 0)%Z then bval - 1 else bval + 1 in
                         match setup_term (c_keep cfg) stats (ns_orig s) (ns_var s) way2 bval2
                                 (solve (term_changes o (ns_orig s) (ns_var s) way2 bval2)) acc1 with
                         | None => None
                         | Some acc2 => Some (acc2, status1)
                         end
                    else Some (acc1, status1)
                end
          end
      end
  end.

(** The loop, VPCEventHandler.cpp:1286-1452; status true = 1. *)
Fixpoint save_loop (cfg : hcfg) (stats : list nodestat) (timeup : bool) (pok : nat -> bool)
    (solve : nat -> list bchange -> option Q) (i : nat) (nodes : list cnode) (status : bool) (acc : sacc)
    : option (sacc * bool) :=
  match nodes with
  | [] => Some (acc, status)
  | nd :: r =>
      let len := Z.of_nat (length nodes) in
      if negb timeup && (2 * (sa_num acc + 2 * len) <=? c_max cfg)%Z then Some (acc, true)
      else match save_node cfg stats timeup (pok i) (solve i) len nd status acc with
           | None => None
           | Some (acc1, status1) => save_loop cfg stats timeup pok solve (S i) r status1 acc1
           end
  end.

(** The disjunction written by saving. *)
(** VPCEventHandler.cpp:1280-1330. *)
Definition saved_disj (st : hst) (isol : option (nat -> Q)) (root : option Q) (a : sacc) : disj :=
  {| d_terms := sa_terms a; d_num_terms := Z.to_nat (sa_num a); d_id := -1; d_best := None; d_worst := None;
     d_iobj := None; d_isol := isol;
     d_common := match h_stats st with s :: _ => ns_changes s | [] => [] end; d_common_ineqs := [];
     d_root := root; d_var := None |}.
(** VPCEventHandler.cpp:1280-1330: the disjunction and the number of leaves are written to the owner. *)
Definition with_saved (st : hst) (d : disj) (a : sacc) : hst :=
  {| h_lo := h_lo st; h_up := h_up st; h_stats := h_stats st; h_pruned := h_pruned st; h_tree := h_tree st;
     h_count2 := h_count2 st; h_leaf := sa_leaf a; h_isol := h_isol st; h_end := h_end st; h_disj := d;
     h_down := sa_down a; h_upb := sa_up a |}.

(** VPCEventHandler.cpp:1280-1330: the term for a saved integer solution, if there is one. *)
Definition isol_count (st : hst) : Z := match h_isol st with Some _ => 1%Z | None => 0%Z end.

(** saveInformation, VPCEventHandler.cpp:1257-1483. *)
Definition saveInformation (cfg : hcfg) (st : hst) (timeup : bool) (pok : nat -> bool)
    (solve : nat -> list bchange -> option Q) : option (hst * bool) :=
  let acc0 := {| sa_terms := []; sa_num := isol_count st; sa_leaf := h_leaf st; sa_down := None; sa_up := None |} in
  match save_loop cfg (h_stats st) timeup pok solve 0 (h_tree st) false acc0 with
  | None => None
  | Some (acc, status) =>
      let status' := status || (negb timeup && (2 * sa_num acc <=? c_max cfg)%Z) in
      let root := match h_stats st with s :: _ => Some (ns_obj s) | [] => None end in
      Some (with_saved st (saved_disj st (h_isol st) root acc) acc, status')
  end.

(** One active node in saveInformationFromStats, VPCEventHandler.cpp:1527-1607: the branches from
    [ns_bi] on, in terms of the way and value recorded when the node was created. *)
Definition savefs_node (cfg : hcfg) (stats : list nodestat) (pok : bool) (solve : list bchange -> option Q)
    (nd : cnode) (acc : sacc) : option sacc :=
  match nth_error stats (cn_num nd) with
  | None => None
  | Some s0 =>
      match nth_error stats (ns_id s0) with
      | None => None
      | Some s =>
          match nth_error stats (ns_orig s) with
          | None => None
          | Some o =>
              if negb pok then None
              else
                let way0 := if (ns_way o =? 1)%Z then 1%Z else 0%Z in
                let bval0 := ns_bval o in
                let way1 := (1 - way0)%Z in
                let bval1 := if (way1 <=? 0)%Z then bval0 - 1 else bval0 + 1 in
                let second a := setup_term (c_keep cfg) stats (ns_orig s) (ns_var s) way1 bval1
                                  (solve (term_changes o (ns_orig s) (ns_var s) way1 bval1)) a in
                if Nat.eqb (ns_bi s) 0
                then match setup_term (c_keep cfg) stats (ns_orig s) (ns_var s) way0 bval0
                             (solve (term_changes o (ns_orig s) (ns_var s) way0 bval0)) acc with
                     | None => None
                     | Some a1 => second a1
                     end
                else second acc
          end
      end
  end.
(** VPCEventHandler.cpp:1527-1607: the loop over the active nodes. *)
Fixpoint savefs_loop (cfg : hcfg) (stats : list nodestat) (pok : nat -> bool)
    (solve : nat -> list bchange -> option Q) (i : nat) (nodes : list cnode) (acc : sacc) : option sacc :=
  match nodes with
  | [] => Some acc
  | nd :: r => match savefs_node cfg stats (pok i) (solve i) nd acc with
               | None => None
               | Some a => savefs_loop cfg stats pok solve (S i) r a
               end
  end.
(** The pruned nodes, VPCEventHandler.cpp:1613-1650: branch information of the parent's statistics. *)
Fixpoint savefs_pruned (cfg : hcfg) (stats pruned : list nodestat) (acc : sacc) : option sacc :=
  match pruned with
  | [] => Some acc
  | p :: r =>
      match ns_parent p with
      | None => None
      | Some id =>
          match nth_error stats id with
          | None => None
          | Some s =>
              match setup_term (c_keep cfg) stats (ns_orig s) (ns_var s) (if (ns_way s =? 1)%Z then 1 else 0)%Z
                      (ns_bval s) None acc with
              | None => None
              | Some a => savefs_pruned cfg stats r a
              end
          end
      end
  end.

(** saveInformationFromStats, VPCEventHandler.cpp:1490-1660 (always returns 0). *)
Definition saveInformationFromStats (cfg : hcfg) (st : hst) (pok : nat -> bool)
    (solve : nat -> list bchange -> option Q) : option hst :=
  let acc0 := {| sa_terms := []; sa_num := 0; sa_leaf := h_leaf st; sa_down := None; sa_up := None |} in
  match savefs_loop cfg (h_stats st) pok solve 0 (h_tree st) acc0 with
  | None => None
  | Some a => match savefs_pruned cfg (h_stats st) (h_pruned st) a with
              | None => None
              | Some a' => Some (with_saved st (saved_disj st None None a') a')
              end
  end.

(** Result of an event: the search stops, goes on, or the program ends (exit, assertion, read outside a
    vector). *)
(** VPCEventHandler.cpp:430-1043. *)
Inductive evres := EvStop (st : hst) | EvGo (st : hst) | EvExit.

(** The bounds after a list of changes (setColLower / setColUpper or direct assignment),
    VPCEventHandler.cpp:446-453. *)
Definition upd_lo (c : bchange) (f : nat -> option Q) : nat -> option Q :=
  if (bc_bound c <=? 0)%Z then fun j => if Nat.eqb j (bc_var c) then Some (bc_val c) else f j else f.
(** VPCEventHandler.cpp:446-453 for upper bounds. *)
Definition upd_up (c : bchange) (f : nat -> option Q) : nat -> option Q :=
  if (bc_bound c <=? 0)%Z then f else fun j => if Nat.eqb j (bc_var c) then Some (bc_val c) else f j.
(** VPCEventHandler.cpp:446-453: lower bounds after all changes. *)
Definition apply_lo (cs : list bchange) (f : nat -> option Q) := fold_left (fun g c => upd_lo c g) cs f.
(** VPCEventHandler.cpp:446-453: upper bounds after all changes. *)
Definition apply_up (cs : list bchange) (f : nat -> option Q) := fold_left (fun g c => upd_up c g) cs f.

(** First treeStatus event, VPCEventHandler.cpp:438-455. *)
Definition first_stats (cfg : hcfg) (st : hst) : option hst :=
  if Nat.eqb (h_count2 st) 1
  then match h_tree st with
       | [] => None
       | nd :: _ =>
           match setNodeStatistics (c_n cfg) (h_lo st) (h_up st) (h_stats st) nd (h_count2 st) true (cn_lo nd) (cn_hi nd) with
           | None => None
           | Some s =>
               let stats := h_stats st ++ [s] in
               let c0 := match stats with s0 :: _ => ns_changes s0 | [] => [] end in
               Some {| h_lo := apply_lo c0 (h_lo st); h_up := apply_up c0 (h_up st); h_stats := stats;
                       h_pruned := h_pruned st; h_tree := h_tree st; h_count2 := h_count2 st; h_leaf := h_leaf st;
                       h_isol := h_isol st; h_end := h_end st; h_disj := h_disj st; h_down := h_down st; h_upb := h_upb st |}
           end
       end
  else Some st.

(** numLeafNodes_, VPCEventHandler.cpp:457-466. *)
Definition count_leaves (cfg : hcfg) (st : hst) : Z :=
  ((if c_keep cfg then Z.of_nat (length (h_pruned st)) else isol_count st) +
   fold_right Z.add 0 (map (fun nd => Z.of_nat (cn_left nd)) (h_tree st)))%Z.

(** Assignment to stats_ and pruned_stats_ (record update). *)
Definition set_stats (st : hst) (stats pruned : list nodestat) : hst :=
  {| h_lo := h_lo st; h_up := h_up st; h_stats := stats; h_pruned := pruned; h_tree := h_tree st;
     h_count2 := h_count2 st; h_leaf := h_leaf st; h_isol := h_isol st; h_end := h_end st;
     h_disj := h_disj st; h_down := h_down st; h_upb := h_upb st |}.

(** A node that was wrongly taken for pruned is moved to the statistics, VPCEventHandler.cpp:509-565.
    [slo], [sup]: bounds of the model's solver; changedBounds appends to the entries already there. *)
Definition fixup (cfg : hcfg) (st : hst) (slo sup : nat -> option Q) : option hst :=
  if negb (c_nochoose cfg) then Some st
  else match rev (h_stats st) with
       | [] => None
       | last :: before =>
           if Nat.eqb (h_count2 st) (S (ns_id last)) then Some st
           else match rev (h_pruned st) with
                | [] => None
                | p :: pr =>
                    match find (fun nd => Nat.eqb (cn_num nd) (ns_id p)) (h_tree st) with
                    | None => None
                    | Some nd =>
                        let s := {| ns_id := ns_id p; ns_orig := ns_orig p; ns_parent := ns_parent p;
                                    ns_var := cn_var nd; ns_way := way_code nd (cur_up nd);
                                    ns_bi := (2 - cn_left nd)%nat; ns_bval := branch_val (cn_value nd) (cur_up nd);
                                    ns_obj := cn_obj nd;
                                    ns_changes := ns_changes p ++ changedBounds (c_n cfg) slo sup (h_lo st) (h_up st) |} in
                        let stats' :=
                          if Nat.eqb (ns_id last) (ns_id s)
                          then rev before ++ [s] ++
                               [{| ns_id := S (ns_id s); ns_orig := ns_orig last; ns_parent := ns_parent last;
                                   ns_var := ns_var last; ns_way := ns_way last; ns_bi := ns_bi last;
                                   ns_bval := ns_bval last; ns_obj := ns_obj last; ns_changes := ns_changes last |}]
                          else h_stats st ++ [s] in
                        Some (set_stats st stats' (rev pr))
                    end
                end
       end.

(** Assignment to numLeafNodes_, VPCEventHandler.cpp:457-466 (record update). *)
Definition set_leaf (st : hst) (l : Z) : hst :=
  {| h_lo := h_lo st; h_up := h_up st; h_stats := h_stats st; h_pruned := h_pruned st; h_tree := h_tree st;
     h_count2 := h_count2 st; h_leaf := l; h_isol := h_isol st; h_end := h_end st; h_disj := h_disj st;
     h_down := h_down st; h_upb := h_upb st |}.
(** The tree of the model after an action of Cbc (record update). *)
Definition set_tree (st : hst) (t : list cnode) : hst :=
  {| h_lo := h_lo st; h_up := h_up st; h_stats := h_stats st; h_pruned := h_pruned st; h_tree := t;
     h_count2 := h_count2 st; h_leaf := h_leaf st; h_isol := h_isol st; h_end := h_end st; h_disj := h_disj st;
     h_down := h_down st; h_upb := h_upb st |}.
(** The search is to stop (record update). *)
Definition set_end (st : hst) : hst :=
  {| h_lo := h_lo st; h_up := h_up st; h_stats := h_stats st; h_pruned := h_pruned st; h_tree := h_tree st;
     h_count2 := h_count2 st; h_leaf := h_leaf st; h_isol := h_isol st; h_end := true; h_disj := h_disj st;
     h_down := h_down st; h_upb := h_upb st |}.

(** The treeStatus event, VPCEventHandler.cpp:429-565.  [ord]: the tree in the order of nodePointer(i) (the
    heap's order is Cbc's business); [timeup]: the time limit is reached. *)
Definition ev_tree (cfg : hcfg) (st : hst) (ord : list cnode) (timeup : bool) (pok : nat -> bool)
    (solve : nat -> list bchange -> option Q) (slo sup : nat -> option Q) : evres :=
  if h_end st || (c_max cfg <=? h_leaf st)%Z then EvStop st
  else match first_stats cfg (set_tree st ord) with
       | None => EvExit
       | Some st1 =>
           let st2 := set_leaf st1 (count_leaves cfg st1) in
           let continue s := match fixup cfg s slo sup with Some s' => EvGo s' | None => EvExit end in
           if (c_max cfg <=? h_leaf st2)%Z || timeup
           then if c_keep cfg
                then match saveInformationFromStats cfg st2 pok solve with
                     | None => EvExit
                     | Some s => EvStop (set_end s)
                     end
                else match saveInformation cfg st2 timeup pok solve with
                     | None => EvExit
                     | Some (s, false) => EvStop (set_end s)
                     | Some (s, true) => continue s
                     end
           else continue st2
       end.

(** A created child (Cbc): branching decision, bounds and objective. *)
(** CbcNode (external), read at VPCEventHandler.cpp:506-565. *)
Record childinfo := { ci_var : nat; ci_value : Q; ci_up : bool; ci_dcode : Z;
                      ci_lo : nat -> option Q; ci_hi : nat -> option Q; ci_obj : Q }.
(** What happens to the child: created and recognised as such, pruned, or created although the handler took
    it for pruned (solver reports infeasible, VPCEventHandler.cpp:510-513). *)
Inductive outcome :=
| Created (c : childinfo)
| Pruned (integ : bool) (slo sup : nat -> option Q) (objv : Q)
| Misjudged (c : childinfo) (integ : bool) (objv : Q).

(** CbcModel::doOneNode (external): the node created for a child. *)
Definition mk_child (c : childinfo) (parent num : nat) : cnode :=
  {| cn_num := num; cn_left := 2; cn_var := ci_var c; cn_value := ci_value c; cn_up := ci_up c;
     cn_dcode := ci_dcode c; cn_lo := ci_lo c; cn_hi := ci_hi c; cn_obj := ci_obj c; cn_parent := Some parent |}.
(** CbcNode::branch (external): one branch of the node is used up. *)
Definition one_less (nd : cnode) : cnode :=
  {| cn_num := cn_num nd; cn_left := (cn_left nd - 1)%nat; cn_var := cn_var nd; cn_value := cn_value nd;
     cn_up := cn_up nd; cn_dcode := cn_dcode nd; cn_lo := cn_lo nd; cn_hi := cn_hi nd; cn_obj := cn_obj nd;
     cn_parent := cn_parent nd |}.
(** CbcTree::push (external): the number of a node is set. *)
Definition renumber (nd : cnode) (num : nat) : cnode :=
  {| cn_num := num; cn_left := cn_left nd; cn_var := cn_var nd; cn_value := cn_value nd; cn_up := cn_up nd;
     cn_dcode := cn_dcode nd; cn_lo := cn_lo nd; cn_hi := cn_hi nd; cn_obj := cn_obj nd;
     cn_parent := cn_parent nd |}.

(** CbcTree::bestNode (external): the node is taken off the tree. *)
Definition remove_nth {A} (k : nat) (l : list A) : list A := firstn k l ++ skipn (S k) l.

(** Cbc takes node [k] from the tree, explores its next branch, raises the node event
    (VPCEventHandler.cpp:566-880), then numbers the child and the parent put back (CbcModel::doOneNode:
    setNodeNumber(numberNodes2_), numberNodes2_++ for each).  The parent of the child is the node taken
    (CbcModel::parentNode, Cbc 2.10 and later, lines 646-650).  The checks of lines 672-848 only stop the
    program. *)
Definition ev_branch (cfg : hcfg) (st : hst) (k : nat) (out : outcome) : evres :=
  match nth_error (h_tree st) k with
  | None => EvExit
  | Some nd =>
      if Nat.eqb (cn_left nd) 0 then EvExit
      else if h_end st || (c_max cfg <=? h_leaf st)%Z then EvStop st
      else
        let rest := remove_nth k (h_tree st) in
        let par := one_less nd in
        let c2 := h_count2 st in
        let thinks_created := match out with Created _ => true | _ => false end in
        let really := match out with Pruned _ _ _ _ => false | _ => true end in
        let stats1 :=
          match out with
          | Created c =>
              let ch := mk_child c (cn_num nd) c2 in
              match setNodeStatistics (c_n cfg) (h_lo st) (h_up st) (h_stats st) ch c2 true (ci_lo c) (ci_hi c) with
              | None => None
              | Some s => Some (h_stats st ++ [s], h_pruned st)
              end
          | Pruned integ slo sup objv =>
              Some (h_stats st, h_pruned st ++
                    [setPrunedNodeStatistics (c_n cfg) (h_lo st) (h_up st) nd c2 integ slo sup objv])
          | Misjudged c integ objv =>
              Some (h_stats st, h_pruned st ++
                    [setPrunedNodeStatistics (c_n cfg) (h_lo st) (h_up st) nd c2 integ (ci_lo c) (ci_hi c) objv])
          end in
        match stats1 with
        | None => EvExit
        | Some (stats, pruned) =>
            let child := match out with
                         | Created c | Misjudged c _ _ => [mk_child c (cn_num nd) c2]
                         | Pruned _ _ _ _ => []
                         end in
            let c3 := (c2 + (if really then 1 else 0))%nat in
            if Nat.eqb (cn_left par) 0
            then EvGo {| h_lo := h_lo st; h_up := h_up st; h_stats := stats; h_pruned := pruned;
                         h_tree := rest ++ child; h_count2 := c3; h_leaf := h_leaf st; h_isol := h_isol st;
                         h_end := h_end st; h_disj := h_disj st; h_down := h_down st; h_upb := h_upb st |}
            else match setNodeStatistics (c_n cfg) (h_lo st) (h_up st) stats par c2 thinks_created
                         (fun _ => None) (fun _ => None) with
                 | None => EvExit
                 | Some s =>
                     EvGo {| h_lo := h_lo st; h_up := h_up st; h_stats := stats ++ [s]; h_pruned := pruned;
                             h_tree := rest ++ child ++ [renumber par c3]; h_count2 := S c3; h_leaf := h_leaf st;
                             h_isol := h_isol st; h_end := h_end st; h_disj := h_disj st; h_down := h_down st;
                             h_upb := h_upb st |}
                 end
        end
  end.

(** Actions: treeStatus event, a branching, a node removed from the tree because of its bound
    (CbcTree::cleanTree, no event is raised), a saved integer solution (beforeSolution2 event,
    VPCEventHandler.cpp:939-941 and 961-966; the event is ignored once the search is to stop, line 430). *)
Inductive action :=
| ATree (ord : list cnode) (timeup : bool) (pok : nat -> bool) (solve : nat -> list bchange -> option Q)
        (slo sup : nat -> option Q)
| ABranch (k : nat) (out : outcome)
| ADrop (k : nat)
| ASol (x : nat -> Q).

(** VPCEventHandler.cpp:961-966: the solution is kept (record update). *)
Definition set_isol (st : hst) (x : nat -> Q) : hst :=
  {| h_lo := h_lo st; h_up := h_up st; h_stats := h_stats st; h_pruned := h_pruned st; h_tree := h_tree st;
     h_count2 := h_count2 st; h_leaf := h_leaf st; h_isol := Some x; h_end := h_end st; h_disj := h_disj st;
     h_down := h_down st; h_upb := h_upb st |}.

(** VPCEventHandler.cpp:380-1043 [event]: one action of the search. *)
Definition step (cfg : hcfg) (st : hst) (a : action) : evres :=
  match a with
  | ATree ord timeup pok solve slo sup => ev_tree cfg st ord timeup pok solve slo sup
  | ABranch k out => ev_branch cfg st k out
  | ADrop k => EvGo (set_tree st (remove_nth k (h_tree st)))
  | ASol x => if h_end st || (c_max cfg <=? h_leaf st)%Z then EvStop st else EvGo (set_isol st x)
  end.

(** Start of the search: the root on the tree (node count 1, number 0), handler fresh
    (VPCEventHandler.cpp:320-345, 1076-1106; original bounds from setOriginalSolver, lines 1020-1045). *)
Definition h_init (lo up : nat -> option Q) (root : cnode) (d : disj) : hst :=
  {| h_lo := lo; h_up := up; h_stats := []; h_pruned := []; h_tree := [root]; h_count2 := 1; h_leaf := 0;
     h_isol := None; h_end := false; h_disj := d; h_down := None; h_upb := None |}.

(** What PartialBBDisjunction::prepareDisjunction makes of the search, PartialBBDisjunction.cpp:106-108,
    221-285.  [term012]: Cbc finished by itself (status 0, 1 or 2); [optimal]: isProvenOptimal. *)
Inductive pbbexit := PNoDisjunction | POptimal | PTooFew | PUnknown | PMismatch | PSuccess.
(** PartialBBDisjunction.cpp:106-108 and 221-285. *)
Definition pbb_exit (keep : bool) (disj_terms : Z) (term012 optimal : bool) (num_terms leaf : Z)
    (n_terms : nat) (isol : bool) : pbbexit :=
  if (disj_terms <? 2)%Z then PNoDisjunction
  else if term012 || (num_terms <=? 1)%Z
  then if optimal then POptimal else if (num_terms <=? 1)%Z then PTooFew else PUnknown
  else if negb (num_terms =? leaf)%Z
          || (negb keep && negb (num_terms =? Z.of_nat n_terms + (if isol then 1 else 0))%Z)
  then PMismatch
  else PSuccess.

(** getCbcStrategies, PartialBBDisjunction.cpp:304-319 (C++ division truncates). *)
Definition getCbcStrategies (s : Z) : Z * Z * Z :=
  let strategy := Z.abs s in
  let sign := (if s <? 0 then -1 else 1)%Z in
  let compare := Z.rem strategy 10 in
  let branch := Z.quot (Z.rem strategy 100 - compare) 10 in
  let choose := Z.quot (sign * (Z.rem strategy 1000 - compare - 10 * branch)) 100 in
  (compare, branch, choose).
