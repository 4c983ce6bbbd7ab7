(** Objects that choose variables, as values: each program variable holds the settings and the state of its own object; a copy holds the
    same and nothing is shared; there is no memory.  What one call answers is that of the model (C47). *)
From Verif Require Export Model.Choosers.
#[local] Open Scope Q_scope.

(** All variables; [None]: deleted. *)
Definition kvalues := list (option kplain).
(** One call on a value: [None] if it is undefined or throws. *)
Definition v_call (srt : list (Q * option nat) -> list (Q * option nat)) (p : kplain) (c : kcall) : option (kplain * list answer) :=
  match c with
  | CSolver n => Some (set_room n p, [])
  | CMethod m => Some (set_method m p, [])
  | CStrong k => Some (set_strong k p, [])
  | CTrust k => Some (set_trust k p, [])
  | CShadow m => Some (set_shadow m p, [])
  | CSetup init rs => match k_setup srt init rs p with None => None | Some p' => Some (p', []) end
  | CChoose nd =>
      if (k_method p =? 7)%Z then match k_decide7 nd p with None => None | Some (p', a) => Some (p', [a]) end
      else if (k_unsat p =? 0)%Z then Some (p, [(1%Z, fst (k_best p), snd (k_best p))])
      else
        let left := Z.min (Z.of_nat (k_strong p) - Z.of_nat (k_done p)) (k_unsat p) in
        if (left <? 0)%Z then None
        else match k_decide (Z.to_nat left) nd p with None => None | Some (p', _, _, a) => Some (p', [a]) end
  end.
(** One command. *)
Definition v_step (srt : list (Q * option nat) -> list (Q * option nat)) (vs : kvalues) (c : kcmd) : option (kvalues * list answer) :=
  match c with
  | KNew => Some (vs ++ [Some (kplain0 0)], [])
  | KNewFor n => Some (vs ++ [Some (kplain0 n)], [])
  | KCopy i => match kget vs i with None => None | Some p => Some (vs ++ [Some p], []) end
  | KAssign i j => match kget vs i, kget vs j with Some _, Some s => Some (kput vs i (Some s), []) | _, _ => None end
  | KDelete i => match kget vs i with None => None | Some _ => Some (kput vs i None, []) end
  | KCall i c => match kget vs i with
                 | None => None
                 | Some p => match v_call srt p c with None => None | Some (p', a) => Some (kput vs i (Some p'), a) end
                 end
  end.
(** A program. *)
Fixpoint v_run (srt : list (Q * option nat) -> list (Q * option nat)) (vs : kvalues) (cs : list kcmd) : option (kvalues * list answer) :=
  match cs with
  | [] => Some (vs, [])
  | c :: r => match v_step srt vs c with
              | None => None
              | Some (vs1, a) => match v_run srt vs1 r with None => None | Some (vs2, a') => Some (vs2, a ++ a') end
              end
  end.

(** Calls that keep to the rules: at least one candidate is strong branched on, and not fewer than were already at this node; the lists are
    made for at least as many objects as the solver has; chooseVariable is not called after setupList has answered that the node is infeasible;
    method 7 is only used where its assertion holds (C47). *)
Definition careful_call (p : kplain) (c : kcall) : Prop :=
  match c with
  | CSolver _ | CMethod _ | CTrust _ => True
  | CStrong k => (1 <= k)%nat /\ (k_done p <= k)%nat
  | CShadow m => (m < 2)%Z
  | CSetup _ rs => (1 <= k_strong p)%nat /\ (length rs <= k_room p)%nat /\ forall r, In r rs -> (r_prio r <= COIN_INT_MAX)%Z
  | CChoose nd => (0 <= k_unsat p)%Z /\ (k_method p = 7%Z -> k_decide7 nd p <> None)
  end.
(** Commands that keep to the rules. *)
Definition careful_cmd (vs : kvalues) (c : kcmd) : Prop :=
  match c with
  | KNew | KNewFor _ => True
  | KCopy i | KDelete i => kget vs i <> None
  | KAssign i j => kget vs i <> None /\ kget vs j <> None
  | KCall i c => exists p, kget vs i = Some p /\ careful_call p c
  end.
(** Programs that keep to the rules at every command. *)
Fixpoint careful_prog (srt : list (Q * option nat) -> list (Q * option nat)) (vs : kvalues) (cs : list kcmd) : Prop :=
  match cs with
  | [] => True
  | c :: r => careful_cmd vs c /\ forall vs' a, v_step srt vs c = Some (vs', a) -> careful_prog srt vs' r
  end.
(** The values held by the objects in memory. *)
Definition values_of (w : kworld) : kvalues := map (option_map k_plain) (w_objs w).
(** The object [i] holds the block [a]. *)
Definition holds (w : kworld) (i a : nat) : Prop := exists o, kget (w_objs w) i = Some o /\ k_results o = Some a.
(** The block [a] is allocated. *)
Definition allocated (w : kworld) (a : nat) : Prop := kget (w_blocks w) a <> None.
