(** Invariants of the records from which search trees are drawn. *)
From Verif Require Import Prelude Model.LP Model.Disjunction Model.EventHandler Model.TreeDrawing Spec.TreeSpec Spec.DrawingSpec Proofs.EventHandlerP.
From Coq Require Import Permutation.
#[local] Open Scope nat_scope.

Definition edge_at (R : list nodestat) (N : list nat) (p num : nat) (kd : kind) : list edge :=
  match nth_error R p, nth_error N p with
  | Some q, Some v => [{| e_from := v; e_to := num; e_var := ns_var q; e_up := (0 <? ns_way q)%Z; e_kind := kd |}]
  | _, _ => []
  end.
Definition expl1 (R : list nodestat) (N : list nat) (x : nodestat * nat) : list edge :=
  if Nat.eqb (ns_orig (fst x)) (ns_id (fst x)) then match ns_parent (fst x) with Some p => edge_at R N p (snd x) Explored | None => [] end else [].
Definition expl (R : list nodestat) (N : list nat) : list edge := flat_map (expl1 R N) (combine R N).
Definition cut1 (R : list nodestat) (N : list nat) (x : nodestat * nat) : list edge :=
  match ns_parent (fst x) with Some p => edge_at R N p (snd x) Cut | None => [] end.
Definition cuts (R : list nodestat) (N : list nat) (P : list nodestat) (PN : list nat) : list edge := flat_map (cut1 R N) (combine P PN).

Definition recs_ok (R : list nodestat) : Prop :=
  forall i s, nth_error R i = Some s -> ns_id s = i /\ ns_orig s <= i /\ (ns_orig s = i -> forall p, ns_parent s = Some p -> p < i).
Definition cut_ok (R : list nodestat) (P : list nodestat) : Prop :=
  forall p, In p P -> exists id, ns_parent p = Some id /\ id < length R.

Lemma edge_at_app R N R' N' p num kd : length N = length R -> p < length R -> edge_at (R ++ R') (N ++ N') p num kd = edge_at R N p num kd.
Proof. intros L H. unfold edge_at. rewrite !nth_error_app1 by lia. reflexivity. Qed.
Lemma combine_app {A B} (a a' : list A) (b b' : list B) : length a = length b -> combine (a ++ a') (b ++ b') = combine a b ++ combine a' b'.
Proof. revert b. induction a as [|x a IH]; intros [|y b] L; cbn in *; try discriminate; [reflexivity|]. f_equal. apply IH. lia. Qed.
Lemma flat_map_eq {A B} (f g : A -> list B) l : (forall x, In x l -> f x = g x) -> flat_map f l = flat_map g l.
Proof. induction l as [|a l IH]; intro H; [reflexivity|]. cbn [flat_map]. rewrite (H a) by (left; reflexivity). rewrite IH; [reflexivity|]. intros x X. apply H. right. exact X. Qed.
Lemma expl_app R N R' N' : recs_ok R -> length N = length R ->
  expl (R ++ R') (N ++ N') = expl R N ++ flat_map (expl1 (R ++ R') (N ++ N')) (combine R' N').
Proof.
  intros OK L. unfold expl. rewrite combine_app by lia. rewrite flat_map_app. f_equal. apply flat_map_eq. intros [s v] X. unfold expl1. cbn [fst snd].
  destruct (Nat.eqb_spec (ns_orig s) (ns_id s)) as [EO|]; [|reflexivity]. destruct (ns_parent s) as [p|] eqn:P; [|reflexivity]. apply edge_at_app; [exact L|].
  apply in_combine_l in X. apply In_nth_error in X. destruct X as [i X]. destruct (OK i s X) as (OI & _ & O). specialize (O ltac:(congruence) p P). apply nth_lt in X. lia.
Qed.
Lemma cuts_app R N R' N' P PN : cut_ok R P -> length N = length R -> cuts (R ++ R') (N ++ N') P PN = cuts R N P PN.
Proof.
  intros OK L. unfold cuts. apply flat_map_eq. intros [s v] X. unfold cut1. cbn [fst snd]. apply in_combine_l in X. destruct (OK s X) as (id & E & I). rewrite E.
  apply edge_at_app; assumption.
Qed.
Lemma cuts_snoc R N P PN p n : length PN = length P -> cuts R N (P ++ [p]) (PN ++ [n]) = cuts R N P PN ++ cut1 R N (p, n).
Proof. intro L. unfold cuts. rewrite combine_app by lia. rewrite flat_map_app. f_equal. cbn [combine flat_map]. apply app_nil_r. Qed.

Lemma explored_app G G' v : explored_node G v -> explored_node (G ++ G') v.
Proof. intros [H|(e & A & B)]; [left; exact H|right; exists e; split; [apply in_or_app; left; exact A|exact B]]. Qed.

Section Sync.
Variables (cfg : hcfg) (ints : nat -> bool).

Definition node_ok (R : list nodestat) (N : list nat) (lab : nat -> nat) (G : list edge) (k : nat) (nd : cnode) : Prop :=
  (cn_left nd = 1 \/ cn_left nd = 2) /\ (cn_dcode nd = 0%Z \/ cn_dcode nd = (-1)%Z) /\
  (exists s, nth_error R (cn_num nd) = Some s /\ ns_var s = cn_var nd /\ ns_bi s = 2 - cn_left nd /\ ns_way s = way_code nd (cur_up nd) /\
     (cn_left nd = 2 -> ns_orig s = cn_num nd)) /\
  nth_error N (cn_num nd) = Some (lab (cn_num nd)) /\ lab (cn_num nd) <= k /\ explored_node G (lab (cn_num nd)) /\
  (forall e, In e G -> e_from e = lab (cn_num nd) -> cn_left nd = 1 /\ e_up e = cn_up nd).

Definition edges_ok (G : list edge) (k : nat) : Prop :=
  NoDup (map e_to G) /\ NoDup (map (fun e => (e_from e, e_up e)) G) /\
  forall e, In e G -> e_from e < e_to e /\ e_to e <= k /\ explored_node G (e_from e).

Definition sync (st : hst) (u : numst) (lab : nat -> nat) (G : list edge) (k : nat) : Prop :=
  h_stats st <> [] /\ length (u_nums u) = length (h_stats st) /\ length (h_stats st) = h_count2 st /\ length (u_pnums u) = length (h_pruned st) /\
  recs_ok (h_stats st) /\ cut_ok (h_stats st) (h_pruned st) /\
  (forall nd, In nd (h_tree st) -> node_ok (h_stats st) (u_nums u) lab G k nd) /\
  NoDup (map (fun nd => lab (cn_num nd)) (h_tree st)) /\
  u_total u = S k /\ edges_ok G k /\
  Permutation (expl (h_stats st) (u_nums u) ++ cuts (h_stats st) (u_nums u) (h_pruned st) (u_pnums u)) G.

Lemma sync_ext st u lab G k st' u' : h_stats st' = h_stats st -> h_pruned st' = h_pruned st -> h_count2 st' = h_count2 st ->
  Permutation (h_tree st) (h_tree st') -> u_nums u' = u_nums u -> u_pnums u' = u_pnums u -> u_total u' = u_total u ->
  sync st u lab G k -> sync st' u' lab G k.
Proof.
  intros E1 E2 E3 PM E4 E5 E6 (A & B & C & D & E & F & H & I & J & K & L). unfold sync. rewrite E1, E2, E3, E4, E5, E6.
  repeat (split; [assumption|]). split.
  - intros nd X. apply H. apply (Permutation_in _ (Permutation_sym PM)). exact X.
  - split; [|split; [exact J|split; assumption]]. apply (Permutation_NoDup (Permutation_map _ PM)). exact I.
Qed.

(** A new explored child of [nd], and the entry of [nd] put back. *)
Definition child_rec (s : nodestat) (c2 : nat) (nd : cnode) (ch : cnode) : Prop :=
  ns_id s = c2 /\ ns_orig s = c2 /\ ns_parent s = Some (cn_num nd) /\ ns_var s = cn_var ch /\ ns_bi s = 0 /\ ns_way s = way_code ch (cn_up ch) /\
  cn_num ch = c2 /\ cn_left ch = 2 /\ (cn_dcode ch = 0%Z \/ cn_dcode ch = (-1)%Z).
Definition back_rec (s : nodestat) (id : nat) (nd : cnode) : Prop :=
  ns_id s = id /\ ns_orig s = cn_num nd /\ ns_parent s = cn_parent nd /\ ns_var s = cn_var nd /\ ns_bi s = 1 /\ ns_way s = way_code nd (negb (cn_up nd)).

Lemma recs_snoc R s : recs_ok R -> ns_id s = length R -> ns_orig s <= length R -> (ns_orig s = length R -> forall p, ns_parent s = Some p -> p < length R) -> recs_ok (R ++ [s]).
Proof.
  intros OK A B C i t H. destruct (Nat.lt_ge_cases i (length R)) as [L|L].
  - rewrite nth_error_app1 in H by exact L. apply OK. exact H.
  - rewrite nth_error_app2 in H by exact L. destruct (i - length R) as [|m] eqn:E; cbn in H; [|destruct m; discriminate]. injection H as <-.
    replace i with (length R) by lia. split; [exact A|]. split; [exact B|exact C].
Qed.
Lemma cut_ok_app R R' P : cut_ok R P -> cut_ok (R ++ R') P.
Proof. intros H p X. destruct (H p X) as (id & E & L). exists id. split; [exact E|]. rewrite app_length. lia. Qed.

Lemma way_up nd up : cn_dcode nd = 0%Z \/ cn_dcode nd = (-1)%Z -> (0 <? way_code nd up)%Z = up.
Proof. intro H. unfold way_code. destruct up; [reflexivity|]. destruct H as [-> | ->]; reflexivity. Qed.

(** Edges stay fine when a branching is added. *)
Lemma edges_snoc st u lab G k i nd out count : sync st u lab G k -> nth_error (h_tree st) i = Some nd -> k < count ->
  edges_ok (G ++ [branching lab nd out count]) count.
Proof.
  intros (_ & _ & _ & _ & _ & _ & H & I & _ & (K1 & K2 & K3) & _) NK C. apply nth_error_In in NK. destruct (H nd NK) as (LE & DC & _ & _ & LK & LI & SD).
  unfold edges_ok. rewrite !map_app. cbn [map branching e_to e_from e_up]. split; [|split].
  - apply (Permutation_NoDup (Permutation_cons_append _ _)). constructor; [|exact K1]. intro X. apply in_map_iff in X. destruct X as (e & <- & X). destruct (K3 e X) as (_ & M & _). lia.
  - apply (Permutation_NoDup (Permutation_cons_append _ _)). constructor; [|exact K2]. intro X. apply in_map_iff in X. destruct X as (e & E & X). injection E as E1 E2.
    destruct (SD e X E1) as [L1 U]. rewrite E2 in U. rewrite (cur_up_one nd L1) in U. destruct (cn_up nd); discriminate.
  - intros e X. apply in_app_or in X. destruct X as [X|[<-|[]]].
    + destruct (K3 e X) as (A & B & D). split; [exact A|]. split; [lia|]. apply explored_app. exact D.
    + cbn [branching e_from e_to]. split; [lia|]. split; [lia|]. apply explored_app. exact LI.
Qed.

(** An old node of the tree that is not the one taken. *)
Lemma node_kept R N R' N' lab lab' G k e k' nd : node_ok R N lab G k nd -> lab' (cn_num nd) = lab (cn_num nd) -> k <= k' -> e_from e <> lab (cn_num nd) ->
  node_ok (R ++ R') (N ++ N') lab' (G ++ [e]) k' nd.
Proof.
  intros (A & B & (s & S1 & S2) & C & D & E & F) EL KK NE. unfold node_ok. rewrite EL. split; [exact A|]. split; [exact B|].
  split; [exists s; split; [apply nth_app; exact S1|exact S2]|]. split; [apply nth_app; exact C|]. split; [lia|]. split.
  - apply explored_app. exact E.
  - intros f X EF. apply in_app_or in X. destruct X as [X|[<-|[]]]; [apply F; assumption|contradiction].
Qed.

Lemma nth_parts {A} (l : list A) : forall i a, nth_error l i = Some a -> l = firstn i l ++ a :: skipn (S i) l.
Proof. induction l as [|b l IH]; intros [|i] a H; cbn in *; try discriminate; [injection H as ->; reflexivity|]. f_equal. apply IH. exact H. Qed.
Lemma nth_other (tree : list cnode) i nd (f : cnode -> nat) m : NoDup (map f tree) -> nth_error tree i = Some nd -> In m (remove_nth i tree) -> f m <> f nd.
Proof.
  intros ND NK X E. unfold remove_nth in X.
  pose proof (nth_parts _ _ _ NK) as SP.
  rewrite SP in ND. rewrite map_app in ND. cbn [map] in ND. apply NoDup_remove_2 in ND. apply ND. rewrite <- map_app, <- E. apply in_map. exact X.
Qed.
Lemma NoDup_remove_nth (tree : list cnode) i (f : cnode -> nat) : NoDup (map f tree) -> NoDup (map f (remove_nth i tree)).
Proof.
  intro ND. unfold remove_nth. destruct (nth_error tree i) as [nd|] eqn:NK.
  - pose proof (nth_parts _ _ _ NK) as SP.
    rewrite SP in ND. rewrite map_app in ND |- *. cbn [map] in ND. exact (NoDup_remove_1 _ _ _ ND).
  - apply nth_error_None in NK. rewrite skipn_all2 by lia. rewrite app_nil_r, firstn_all2 by lia. exact ND.
Qed.
Lemma num_lt R N lab G k nd : node_ok R N lab G k nd -> cn_num nd < length R.
Proof. intros (_ & _ & (s & S & _) & _). apply nth_lt in S. exact S. Qed.

(** The state after a child has been recorded as explored. *)
Lemma explored_sync st u lab G k i nd ch s back count out :
  sync st u lab G k -> nth_error (h_tree st) i = Some nd -> k < count -> match out with Pruned _ _ _ _ => False | _ => True end ->
  child_rec s (h_count2 st) nd ch ->
  (back = [] /\ cn_left nd = 1 \/ exists sp, back = [sp] /\ cn_left nd = 2 /\ back_rec sp (S (h_count2 st)) nd) ->
  forall st' u', h_stats st' = h_stats st ++ [s] ++ back -> h_pruned st' = h_pruned st ->
  h_count2 st' = S (h_count2 st) + length back ->
  Permutation (h_tree st') (remove_nth i (h_tree st) ++ [ch] ++ (if Nat.eqb (cn_left nd) 2 then [renumber (one_less nd) (S (h_count2 st))] else [])) ->
  u_nums u' = u_nums u ++ [count] ++ (if Nat.eqb (cn_left nd) 2 then [lab (cn_num nd)] else []) -> u_pnums u' = u_pnums u -> u_total u' = S count ->
  sync st' u' (next_lab st lab nd out count) (G ++ [branching lab nd out count]) count.
Proof.
  intros SY NK KC NP CR BK st' u' E1 E2 E3 PT E4 E5 E6. pose proof (edges_snoc st u lab G k i nd out count SY NK KC) as EO.
  destruct SY as (A & B & C & D & E & F & H & I & J & K & L). pose proof (nth_error_In _ _ NK) as NI. pose proof (H nd NI) as NO.
  destruct CR as (C1 & C2 & C3 & C4 & C5 & C6 & C7 & C8 & C9). pose proof (num_lt _ _ _ _ _ _ NO) as NL.
  assert (NLAB : forall j, j < h_count2 st -> next_lab st lab nd out count j = lab j).
  { intros j Hj. unfold next_lab. destruct out; [|destruct NP|]; cbn [andb]; (destruct (Nat.eqb_spec j (h_count2 st)); [lia|]); (destruct (Nat.eqb_spec j (S (h_count2 st))); [lia|reflexivity]). }
  assert (NLC : next_lab st lab nd out count (h_count2 st) = count) by (unfold next_lab; destruct out; [|destruct NP|]; cbn [andb]; rewrite Nat.eqb_refl; reflexivity).
  assert (NLB : next_lab st lab nd out count (S (h_count2 st)) = lab (cn_num nd)).
  { unfold next_lab. destruct out; [|destruct NP|]; cbn [andb]; (destruct (Nat.eqb_spec (S (h_count2 st)) (h_count2 st)); [lia|]); rewrite Nat.eqb_refl; reflexivity. }
  assert (LB : length (if Nat.eqb (cn_left nd) 2 then [lab (cn_num nd)] else []) = length back).
  { destruct BK as [[-> ->]|(sp & -> & -> & _)]; reflexivity. }
  assert (RS : recs_ok (h_stats st ++ [s])).
  { apply recs_snoc; [exact E|congruence|lia|]. intros _ p Hp. rewrite C3 in Hp. injection Hp as <-. exact NL. }
  assert (RB : recs_ok (h_stats st ++ [s] ++ back)).
  { rewrite app_assoc. destruct BK as [[-> _]|(sp & -> & L2 & (B1 & B2 & B3 & _))]; [rewrite app_nil_r; exact RS|]. apply recs_snoc; [exact RS|rewrite app_length; cbn [length]; lia|rewrite app_length; cbn [length]; lia|].
    rewrite app_length. cbn [length]. intro X. lia. }
  unfold sync. rewrite E1, E2, E3, E4, E5, E6.
  split; [destruct (h_stats st); discriminate|]. split; [rewrite !app_length, B, LB; reflexivity|]. split; [rewrite !app_length; cbn [length]; lia|]. split; [exact D|].
  split; [exact RB|]. split; [apply cut_ok_app; exact F|]. split; [|split; [|split; [reflexivity|split; [exact EO|]]]].
  - intros m M. apply (Permutation_in _ PT) in M. apply in_app_or in M. destruct M as [M|M].
    + pose proof (H m (remove_in _ _ _ M)) as MO. apply (node_kept _ _ _ _ lab _ _ k); [exact MO| |lia|].
      * apply NLAB. rewrite <- C. exact (num_lt _ _ _ _ _ _ MO).
      * cbn [branching e_from]. intro X. symmetry in X. revert X. exact (nth_other _ i nd (fun x => lab (cn_num x)) m I NK M).
    + cbn [app] in M. destruct M as [<-|M].
      * split; [right; exact C8|]. split; [exact C9|]. rewrite C7, NLC. split; [|split; [|split; [lia|split; [right; exists (branching lab nd out count); split; [apply in_or_app; right; left; reflexivity|split; [reflexivity|destruct out; [reflexivity|destruct NP|reflexivity]]]|]]]].
        -- exists s. split; [rewrite nth_error_app2 by lia; rewrite C, Nat.sub_diag; reflexivity|]. rewrite C8, (cur_up_two ch C8). repeat (split; [assumption|]). intros _. exact C2.
        -- rewrite nth_error_app2 by lia. rewrite B, C, Nat.sub_diag. reflexivity.
        -- intros e X EF. exfalso. destruct EO as (_ & _ & EO). destruct (EO e X) as (T1 & T2 & _). lia.
      * destruct (Nat.eqb_spec (cn_left nd) 2) as [L2|]; [|destruct M]. destruct M as [<-|[]]. destruct BK as [[_ BK]|(sp & -> & _ & (B1 & B2 & B3 & B4 & B5 & B6))]; [lia|].
        unfold node_ok. cbn [renumber one_less cn_left cn_dcode cn_num cn_var cn_up]. destruct NO as (_ & DC & _ & _ & LK & LI & SD). rewrite NLB. rewrite L2. split; [left; reflexivity|]. split; [exact DC|].
        split; [|split; [|split; [lia|split]]].
        -- exists sp. split; [rewrite app_assoc, nth_error_app2; rewrite app_length; cbn [length]; [|lia]; replace (S (h_count2 st) - (length (h_stats st) + 1)) with 0 by lia; reflexivity|].
           split; [exact B4|]. split; [exact B5|]. split; [rewrite B6; unfold cur_up; cbn [renumber one_less cn_left cn_up]; rewrite L2; reflexivity|]. intro X; discriminate X.
        -- rewrite app_assoc, nth_error_app2; rewrite app_length; cbn [length]; [|lia]. replace (S (h_count2 st) - (length (u_nums u) + 1)) with 0 by lia. reflexivity.
        -- apply explored_app. exact LI.
        -- intros e X EF. split; [reflexivity|]. apply in_app_or in X. destruct X as [X|[<-|[]]].
           ++ destruct (SD e X EF) as [X1 _]. lia.
           ++ cbn [branching e_up]. apply cur_up_two. exact L2.
  - apply (Permutation_NoDup (Permutation_map _ (Permutation_sym PT))). rewrite !map_app. cbn [map]. rewrite C7, NLC.
    assert (OLD : map (fun x => next_lab st lab nd out count (cn_num x)) (remove_nth i (h_tree st)) = map (fun x => lab (cn_num x)) (remove_nth i (h_tree st))).
    { apply map_ext_in. intros m M. apply NLAB. rewrite <- C. exact (num_lt _ _ _ _ _ _ (H m (remove_in _ _ _ M))). }
    rewrite OLD. assert (ND := NoDup_remove_nth (h_tree st) i (fun x => lab (cn_num x)) I).
    assert (NC : ~ In count (map (fun x => lab (cn_num x)) (remove_nth i (h_tree st)))).
    { intro X. apply in_map_iff in X. destruct X as (m & X1 & X2). destruct (H m (remove_in _ _ _ X2)) as (_ & _ & _ & _ & LK & _). lia. }
    apply (Permutation_NoDup (l := count :: map (fun nd0 => next_lab st lab nd out count (cn_num nd0)) (if cn_left nd =? 2 then [renumber (one_less nd) (S (h_count2 st))] else []) ++ map (fun x => lab (cn_num x)) (remove_nth i (h_tree st)))).
    { rewrite app_comm_cons. apply Permutation_app_comm. }
    destruct (Nat.eqb_spec (cn_left nd) 2) as [L2|NL2]; cbn [map app].
    + cbn [renumber cn_num]. rewrite NLB. constructor.
      * intros [X|X]; [|contradiction]. destruct NO as (_ & _ & _ & _ & LK & _). lia.
      * constructor; [|exact ND]. intro X. apply in_map_iff in X. destruct X as (m & X1 & X2). exact (nth_other _ i nd (fun x => lab (cn_num x)) m I NK X2 X1).
    + constructor; assumption.
  - rewrite cuts_app by assumption. rewrite (expl_app _ _ _ _ E B).
    set (R2 := h_stats st ++ [s] ++ back). set (N2 := u_nums u ++ [count] ++ (if cn_left nd =? 2 then [lab (cn_num nd)] else [])).
    assert (NEW : flat_map (expl1 R2 N2) (combine ([s] ++ back) ([count] ++ (if cn_left nd =? 2 then [lab (cn_num nd)] else []))) = [branching lab nd out count]).
    { assert (B0 : flat_map (expl1 R2 N2) (combine back (if cn_left nd =? 2 then [lab (cn_num nd)] else [])) = []).
      { destruct BK as [[-> ->]|(sp & -> & -> & (B1 & B2 & _))]; [reflexivity|]. cbn [Nat.eqb combine flat_map]. unfold expl1. cbn [fst]. rewrite B1, B2. destruct (Nat.eqb_spec (cn_num nd) (S (h_count2 st))); [lia|reflexivity]. }
      cbn [app combine flat_map]. rewrite B0, app_nil_r. unfold expl1. cbn [fst snd]. rewrite C1, C2, Nat.eqb_refl, C3. unfold R2, N2. rewrite edge_at_app by assumption.
      unfold edge_at. destruct NO as (LE & DC & (s0 & S0 & S1 & _ & S2 & _) & N0 & _). rewrite S0, N0, S1, S2. unfold branching. rewrite (way_up nd _ DC). destruct out; [reflexivity|destruct NP|reflexivity]. }
    rewrite NEW. rewrite <- app_assoc. apply (Permutation_trans (l' := expl (h_stats st) (u_nums u) ++ cuts (h_stats st) (u_nums u) (h_pruned st) (u_pnums u) ++ [branching lab nd out count])).
    + apply Permutation_app_head. apply Permutation_app_comm.
    + rewrite app_assoc. apply Permutation_app_tail. exact L.
Qed.

(** The state after a child has been recorded as pruned. *)
Lemma pruned_sync st u lab G k i nd p back count integ slo sup objv : let out := Pruned integ slo sup objv in
  sync st u lab G k -> nth_error (h_tree st) i = Some nd -> k < count -> ns_parent p = Some (cn_num nd) ->
  (back = [] /\ cn_left nd = 1 \/ exists sp, back = [sp] /\ cn_left nd = 2 /\ back_rec sp (h_count2 st) nd) ->
  forall st' u', h_stats st' = h_stats st ++ back -> h_pruned st' = h_pruned st ++ [p] -> h_count2 st' = h_count2 st + length back ->
  Permutation (h_tree st') (remove_nth i (h_tree st) ++ (if Nat.eqb (cn_left nd) 2 then [renumber (one_less nd) (h_count2 st)] else [])) ->
  u_nums u' = u_nums u ++ (if Nat.eqb (cn_left nd) 2 then [lab (cn_num nd)] else []) -> u_pnums u' = u_pnums u ++ [count] -> u_total u' = S count ->
  sync st' u' (next_lab st lab nd out count) (G ++ [branching lab nd out count]) count.
Proof.
  intros out SY NK KC PP BK st' u' E1 E2 E3 PT E4 E5 E6. pose proof (edges_snoc st u lab G k i nd out count SY NK KC) as EO.
  destruct SY as (A & B & C & D & E & F & H & I & J & K & L). pose proof (nth_error_In _ _ NK) as NI. pose proof (H nd NI) as NO.
  pose proof (num_lt _ _ _ _ _ _ NO) as NL.
  assert (NLAB : forall j, j < h_count2 st -> next_lab st lab nd out count j = lab j).
  { intros j Hj. unfold next_lab, out. cbn [andb]. destruct (Nat.eqb_spec j (h_count2 st)); [lia|reflexivity]. }
  assert (NLB : next_lab st lab nd out count (h_count2 st) = lab (cn_num nd)).
  { unfold next_lab, out. cbn [andb]. rewrite Nat.eqb_refl. reflexivity. }
  assert (LB : length (if Nat.eqb (cn_left nd) 2 then [lab (cn_num nd)] else []) = length back).
  { destruct BK as [[-> ->]|(sp & -> & -> & _)]; reflexivity. }
  assert (RB : recs_ok (h_stats st ++ back)).
  { destruct BK as [[-> _]|(sp & -> & L2 & (B1 & B2 & B3 & _))]; [rewrite app_nil_r; exact E|]. apply recs_snoc; [exact E|lia|lia|]. intro X. lia. }
  unfold sync. rewrite E1, E2, E3, E4, E5, E6.
  split; [destruct (h_stats st); [contradiction|discriminate]|]. split; [rewrite !app_length, B, LB; reflexivity|]. split; [rewrite !app_length; lia|].
  split; [rewrite !app_length; cbn [length]; lia|]. split; [exact RB|].
  split; [intros q X; apply in_app_or in X; destruct X as [X|[<-|[]]]; [exact (cut_ok_app _ _ _ F q X)|exists (cn_num nd); split; [exact PP|rewrite app_length; lia]]|].
  split; [|split; [|split; [reflexivity|split; [exact EO|]]]].
  - intros m M. apply (Permutation_in _ PT) in M. apply in_app_or in M. destruct M as [M|M].
    + pose proof (H m (remove_in _ _ _ M)) as MO. apply (node_kept _ _ _ _ lab _ _ k); [exact MO| |lia|].
      * apply NLAB. rewrite <- C. exact (num_lt _ _ _ _ _ _ MO).
      * cbn [branching e_from]. intro X. symmetry in X. revert X. exact (nth_other _ i nd (fun x => lab (cn_num x)) m I NK M).
    + destruct (Nat.eqb_spec (cn_left nd) 2) as [L2|]; [|destruct M]. destruct M as [<-|[]]. destruct BK as [[_ BK]|(sp & -> & _ & (B1 & B2 & B3 & B4 & B5 & B6))]; [lia|].
      unfold node_ok. cbn [renumber one_less cn_left cn_dcode cn_num cn_var cn_up]. destruct NO as (_ & DC & _ & _ & LK & LI & SD). rewrite NLB. rewrite L2. split; [left; reflexivity|]. split; [exact DC|].
      split; [|split; [|split; [lia|split]]].
      * exists sp. split; [rewrite nth_error_app2 by lia; rewrite C, Nat.sub_diag; reflexivity|].
        split; [exact B4|]. split; [exact B5|]. split; [rewrite B6; unfold cur_up; cbn [renumber one_less cn_left cn_up]; rewrite L2; reflexivity|]. intro X; discriminate X.
      * rewrite nth_error_app2 by lia. replace (h_count2 st - length (u_nums u)) with 0 by lia. reflexivity.
      * apply explored_app. exact LI.
      * intros e X EF. split; [reflexivity|]. apply in_app_or in X. destruct X as [X|[<-|[]]].
        -- destruct (SD e X EF) as [X1 _]. lia.
        -- cbn [branching e_up]. apply cur_up_two. exact L2.
  - apply (Permutation_NoDup (Permutation_map _ (Permutation_sym PT))). rewrite !map_app.
    assert (OLD : map (fun x => next_lab st lab nd out count (cn_num x)) (remove_nth i (h_tree st)) = map (fun x => lab (cn_num x)) (remove_nth i (h_tree st))).
    { apply map_ext_in. intros m M. apply NLAB. rewrite <- C. exact (num_lt _ _ _ _ _ _ (H m (remove_in _ _ _ M))). }
    rewrite OLD. assert (ND := NoDup_remove_nth (h_tree st) i (fun x => lab (cn_num x)) I).
    destruct (Nat.eqb_spec (cn_left nd) 2) as [L2|NL2]; cbn [map app].
    + cbn [renumber cn_num]. rewrite NLB. apply (Permutation_NoDup (Permutation_cons_append _ _)).
      constructor; [|exact ND]. intro X. apply in_map_iff in X. destruct X as (m & X1 & X2). exact (nth_other _ i nd (fun x => lab (cn_num x)) m I NK X2 X1).
    + rewrite app_nil_r. exact ND.
  - rewrite cuts_snoc by assumption. rewrite cuts_app by assumption. rewrite (expl_app _ _ _ _ E B).
    set (R2 := h_stats st ++ back). set (N2 := u_nums u ++ (if cn_left nd =? 2 then [lab (cn_num nd)] else [])).
    assert (NEW : flat_map (expl1 R2 N2) (combine back (if cn_left nd =? 2 then [lab (cn_num nd)] else [])) = []).
    { destruct BK as [[-> ->]|(sp & -> & -> & (B1 & B2 & _))]; [reflexivity|]. cbn [Nat.eqb combine flat_map]. unfold expl1. cbn [fst]. rewrite B1, B2. destruct (Nat.eqb_spec (cn_num nd) (h_count2 st)); [lia|reflexivity]. }
    assert (CUT : cut1 R2 N2 (p, count) = [branching lab nd out count]).
    { unfold cut1. cbn [fst snd]. rewrite PP. unfold R2, N2. rewrite edge_at_app by assumption.
      unfold edge_at. destruct NO as (LE & DC & (s0 & S0 & S1 & _ & S2 & _) & N0 & _). rewrite S0, N0, S1, S2. unfold branching, out. rewrite (way_up nd _ DC). reflexivity. }
    rewrite NEW, CUT, app_nil_r, app_assoc. apply Permutation_app_tail. exact L.
Qed.

(** ** Single events. *)
Lemma back_spec olo oup slo sup stats nd c2 (wc : bool) s : setNodeStatistics (c_n cfg) olo oup stats (one_less nd) c2 wc slo sup = Some s ->
  cn_left nd = 2 -> back_rec s (c2 + if wc then 1 else 0) nd.
Proof.
  intros S L2. destruct (sns_fields cfg _ _ _ _ _ _ _ _ _ S) as (S1 & S2 & S3 & S4 & S5 & S6 & S7 & S8).
  cbn [one_less cn_left cn_num cn_parent cn_var] in *. rewrite L2 in S5, S8. cbn in S5, S8. split; [exact S8|]. split; [exact S1|]. split; [exact S2|]. split; [exact S3|]. split; [exact S5|].
  rewrite S4. unfold cur_up. cbn [one_less cn_left cn_up]. rewrite L2. reflexivity.
Qed.
Lemma nth_lab st u lab G k nd : sync st u lab G k -> In nd (h_tree st) ->
  match nth_error (u_nums u) (cn_num nd) with Some v => [v] | None => [] end = [lab (cn_num nd)].
Proof. intros SY NI. destruct SY as (_ & _ & _ & _ & _ & _ & H & _). destruct (H nd NI) as (_ & _ & _ & -> & _). reflexivity. Qed.

Lemma branch_sync st u lab G k i nd out count st' : sync st u lab G k -> nth_error (h_tree st) i = Some nd -> k < count ->
  lawful cfg ints st (ABranch i out) -> step cfg st (ABranch i out) = EvGo st' ->
  match out with Misjudged _ _ _ => True
  | _ => sync st' (step_nums cfg st u (ABranch i out) count) (next_lab st lab nd out count) (G ++ [branching lab nd out count]) count end.
Proof.
  intros SY NK KC LW ST. pose proof (nth_error_In _ _ NK) as NI. pose proof SY as (A & B & C & D & E & F & H & I & J & K & L).
  assert (LE : cn_left nd = 1 \/ cn_left nd = 2) by apply (H nd NI).
  cbn [step] in ST. unfold ev_branch in ST. rewrite NK in ST. destruct (Nat.eqb (cn_left nd) 0); [discriminate|]. destruct (h_end st || _); [discriminate|]. cbv zeta in ST.
  destruct out as [c|integ slo sup objv|c integ objv]; [| |exact Logic.I].
  - destruct LW as (_ & _ & _ & _ & _ & DC).
    destruct (setNodeStatistics _ _ _ _ _ _ _ _ _) as [s|] eqn:S in ST; [|discriminate].
    destruct (sns_fields cfg _ _ _ _ _ _ _ _ _ S) as (S1 & S2 & S3 & S4 & S5 & S6 & S7 & S8). cbn in S8.
    assert (CR : child_rec s (h_count2 st) nd (mk_child c (cn_num nd) (h_count2 st))).
    { split; [exact S8|]. split; [exact S1|]. split; [exact S2|]. split; [exact S3|]. split; [exact S5|]. split; [exact S4|]. split; [reflexivity|]. split; [reflexivity|exact DC]. }
    assert (NUM : u_nums (step_nums cfg st u (ABranch i (Created c)) count) = u_nums u ++ [count] ++ (if Nat.eqb (cn_left nd) 2 then [lab (cn_num nd)] else [])).
    { cbn [step_nums]. rewrite NK. cbn [u_nums]. rewrite (nth_lab _ _ _ _ _ _ SY NI), <- app_assoc. reflexivity. }
    assert (PNU : u_pnums (step_nums cfg st u (ABranch i (Created c)) count) = u_pnums u) by (cbn [step_nums]; rewrite NK; reflexivity).
    assert (TOT : u_total (step_nums cfg st u (ABranch i (Created c)) count) = Datatypes.S count) by (cbn [step_nums]; rewrite NK; cbn [u_total]; rewrite J; lia).
    cbn [one_less cn_left] in ST. destruct LE as [L1|L2].
    + rewrite L1 in ST. cbn [Nat.sub Nat.eqb] in ST. injection ST as <-.
      apply (explored_sync st u lab G k i nd (mk_child c (cn_num nd) (h_count2 st)) s [] count (Created c)); try assumption; try reflexivity.
      * left. split; [reflexivity|exact L1].
      * cbn [h_count2 length]. lia.
      * rewrite L1. cbn [Nat.eqb h_tree]. rewrite app_nil_r. reflexivity.
    + rewrite L2 in ST. cbn [Nat.sub Nat.eqb] in ST. destruct (setNodeStatistics _ _ _ _ (one_less nd) _ _ _ _) as [sp|] eqn:SP in ST; [|discriminate].
      injection ST as <-. pose proof (back_spec _ _ _ _ _ _ _ _ _ SP L2) as BR. rewrite Nat.add_1_r in BR.
      apply (explored_sync st u lab G k i nd (mk_child c (cn_num nd) (h_count2 st)) s [sp] count (Created c)); try assumption; try reflexivity.
      * right. exists sp. split; [reflexivity|]. split; [exact L2|exact BR].
      * cbn [h_stats]. rewrite <- app_assoc. reflexivity.
      * rewrite L2. cbn [Nat.eqb h_tree]. rewrite Nat.add_1_r. reflexivity.
  - assert (NUM : u_nums (step_nums cfg st u (ABranch i (Pruned integ slo sup objv)) count) = u_nums u ++ (if Nat.eqb (cn_left nd) 2 then [lab (cn_num nd)] else [])).
    { cbn [step_nums]. rewrite NK. cbn [u_nums]. rewrite (nth_lab _ _ _ _ _ _ SY NI). reflexivity. }
    assert (PNU : u_pnums (step_nums cfg st u (ABranch i (Pruned integ slo sup objv)) count) = u_pnums u ++ [count]) by (cbn [step_nums]; rewrite NK; reflexivity).
    assert (TOT : u_total (step_nums cfg st u (ABranch i (Pruned integ slo sup objv)) count) = Datatypes.S count) by (cbn [step_nums]; rewrite NK; cbn [u_total]; rewrite J; lia).
    cbn [one_less cn_left] in ST. destruct LE as [L1|L2].
    + rewrite L1 in ST. cbn [Nat.sub Nat.eqb] in ST. injection ST as <-.
      apply (pruned_sync st u lab G k i nd (setPrunedNodeStatistics (c_n cfg) (h_lo st) (h_up st) nd (h_count2 st) integ slo sup objv) [] count integ slo sup objv); try assumption; try reflexivity; cbn [h_stats h_pruned h_tree h_count2].
      * left. split; [reflexivity|exact L1].
      * rewrite app_nil_r. reflexivity.
      * rewrite L1. cbn [Nat.eqb]. reflexivity.
    + rewrite L2 in ST. cbn [Nat.sub Nat.eqb] in ST. destruct (setNodeStatistics _ _ _ _ (one_less nd) _ _ _ _) as [sp|] eqn:SP in ST; [|discriminate].
      injection ST as <-. pose proof (back_spec _ _ _ _ _ _ _ _ _ SP L2) as BR. rewrite Nat.add_0_r in BR.
      apply (pruned_sync st u lab G k i nd (setPrunedNodeStatistics (c_n cfg) (h_lo st) (h_up st) nd (h_count2 st) integ slo sup objv) [sp] count integ slo sup objv); try assumption; try reflexivity; cbn [h_stats h_pruned h_tree h_count2].
      * right. exists sp. split; [reflexivity|]. split; [exact L2|exact BR].
      * cbn [length]. lia.
      * rewrite L2. cbn [Nat.eqb app]. rewrite Nat.add_0_r. reflexivity.
Qed.

Lemma last_id R : R <> [] -> recs_ok R -> exists l b, rev R = l :: b /\ length R = S (ns_id l) /\ R = rev b ++ [l].
Proof.
  intros A E. destruct (rev R) as [|l b] eqn:X; [exfalso; apply A; rewrite <- (rev_involutive R), X; reflexivity|].
  exists l, b. split; [reflexivity|]. apply rev_last in X. assert (L : nth_error R (length (rev b)) = Some l).
  { rewrite X. exact (nth_snoc cfg _ _). }
  destruct (E _ _ L) as (-> & _). split; [|exact X]. rewrite X at 1. rewrite app_length. cbn [length]. lia.
Qed.
Lemma fix_sync st u lab G k slo sup : sync st u lab G k -> fixup cfg st slo sup = Some st.
Proof.
  intros (A & B & C & D & E & _). unfold fixup. destruct (c_nochoose cfg); cbn [negb]; [|reflexivity].
  destruct (last_id _ A E) as (l & b & R & LL & _). rewrite R, <- C, LL, Nat.eqb_refl. reflexivity.
Qed.
Lemma fixn_sync st v : h_stats st <> [] -> length (h_stats st) = h_count2 st -> recs_ok (h_stats st) -> fix_nums cfg st v = v.
Proof.
  intros A C E. unfold fix_nums. destruct (c_nochoose cfg); cbn [negb]; [|reflexivity].
  destruct (last_id _ A E) as (l & b & R & LL & _). rewrite R, <- C, LL, Nat.eqb_refl. destruct (rev (h_pruned st)); reflexivity.
Qed.
Lemma first_sync st u lab G k ord st1 : sync st u lab G k -> Permutation (h_tree st) ord -> first_stats cfg (set_tree st ord) = Some st1 ->
  st1 = set_tree st ord /\ h_count2 st <> 1.
Proof.
  intros (A & B & C & D & E & F & H & _) PM FS. unfold first_stats in FS. cbn [h_count2 set_tree h_tree h_stats h_lo h_up] in FS.
  destruct (Nat.eqb_spec (h_count2 st) 1) as [C1|C1]; [|injection FS as <-; split; [reflexivity|exact C1]]. exfalso.
  destruct ord as [|nd r]; [discriminate|]. assert (NI : In nd (h_tree st)) by (apply (Permutation_in _ (Permutation_sym PM)); left; reflexivity).
  pose proof (H nd NI) as NO. pose proof (num_lt _ _ _ _ _ _ NO) as NL. destruct (setNodeStatistics _ _ _ _ _ _ _ _ _) as [s|] eqn:S in FS; [|discriminate].
  destruct (last_id _ A E) as (l & b & R & LL & _). unfold setNodeStatistics in S. rewrite R in S. cbv zeta in S. destruct (Nat.eqb _ (Datatypes.S (ns_id l))) eqn:Q in S; [|discriminate].
  apply Nat.eqb_eq in Q. destruct (Nat.eqb (2 - cn_left nd) 0); lia.
Qed.

(** Saving visits all nodes unless it gives up. *)
Lemma visited_all stats timeup pok solve : forall nodes i status acc acc', save_loop cfg stats timeup pok solve i nodes status acc = Some (acc', false) ->
  save_visited cfg stats timeup pok solve i nodes status acc = all_visited stats nodes.
Proof.
  induction nodes as [|nd r IH]; intros i status acc acc' SV; [reflexivity|]. cbn [save_loop] in SV. cbn [save_visited]. cbv zeta in SV |- *.
  destruct (negb timeup && _); [discriminate|]. destruct (save_node _ _ _ _ _ _ _ _ _) as [[acc1 st1]|]; [|discriminate]. rewrite (IH _ _ _ _ SV). reflexivity.
Qed.
Lemma visited_nums stats nodes : recs_ok stats -> (forall nd, In nd nodes -> cn_num nd < length stats) -> all_visited stats nodes = map cn_num nodes.
Proof.
  intros OK H. unfold all_visited. induction nodes as [|nd r IH]; [reflexivity|]. cbn [flat_map map]. rewrite IH by (intros m M; apply H; right; exact M).
  destruct (nth_error stats (cn_num nd)) as [s|] eqn:S.
  - destruct (OK _ _ S) as [-> _]. reflexivity.
  - exfalso. apply nth_error_None in S. specialize (H nd (or_introl eq_refl)). lia.
Qed.

(** A treeStatus event once the first entry has been made. *)
Lemma tree_tail st1 u u1 lab G k ord timeup pok solve slo sup : sync st1 u1 lab G k -> h_tree st1 = ord -> u_final u1 = u_final u -> u_act u1 = length ord ->
  let st2 := set_leaf st1 (count_leaves cfg st1) in
  let acc0 := {| sa_terms := []; sa_num := isol_count st2; sa_leaf := h_leaf st2; sa_down := None; sa_up := None |} in
  let final := u_final u ++ (if c_keep cfg then all_visited (h_stats st2) ord else save_visited cfg (h_stats st2) timeup pok solve 0 ord false acc0) in
  let u2 := {| u_nums := u_nums u1; u_pnums := u_pnums u1; u_total := u_total u1; u_final := final; u_act := u_act u1 |} in
  let u' := if (c_max cfg <=? h_leaf st2)%Z || timeup
            then if c_keep cfg then u2 else match saveInformation cfg st2 timeup pok solve with Some (_, true) => fix_nums cfg st2 u2 | _ => u2 end
            else fix_nums cfg st2 u1 in
  let continue s := match fixup cfg s slo sup with Some s' => EvGo s' | None => EvExit end in
  match (if (c_max cfg <=? h_leaf st2)%Z || timeup
         then if c_keep cfg
              then match saveInformationFromStats cfg st2 pok solve with None => EvExit | Some s => EvStop (set_end s) end
              else match saveInformation cfg st2 timeup pok solve with
                   | None => EvExit | Some (s, false) => EvStop (set_end s) | Some (s, true) => continue s end
         else continue st2) with
  | EvExit => True
  | EvGo st' => sync st' u' lab G k
  | EvStop st' => sync st' u' lab G k /\ h_tree st' = ord /\ u_final u' = u_final u ++ map cn_num ord /\ u_act u' = length ord
  end.
Proof.
  intros SY TR UF UA st2 acc0 final u2 u' cont. pose proof SY as (A & B & C & D & E & F & H & _).
  assert (ALL : all_visited (h_stats st2) ord = map cn_num ord).
  { apply visited_nums; [exact E|]. intros nd X. rewrite <- TR in X. exact (num_lt _ _ _ _ _ _ (H nd X)). }
  assert (EXT : forall s v, h_stats s = h_stats st1 -> h_pruned s = h_pruned st1 -> h_count2 s = h_count2 st1 -> h_tree s = ord -> u_nums v = u_nums u1 -> u_pnums v = u_pnums u1 -> u_total v = u_total u1 ->
     sync s v lab G k).
  { intros s v S1 S2 S3 S4 V1 V2 V3. apply (sync_ext st1 u1); try assumption. rewrite S4, TR. apply Permutation_refl. }
  assert (FX : forall s v, sync s v lab G k -> match cont s with EvExit => True | EvGo st' => sync st' v lab G k | EvStop _ => False end).
  { intros s v SS. unfold cont. rewrite (fix_sync s v lab G k slo sup SS). exact SS. }
  unfold u'. destruct ((c_max cfg <=? _)%Z || timeup).
  - destruct (c_keep cfg) eqn:KP.
    + unfold saveInformationFromStats. cbv zeta. destruct (savefs_loop _ _ _ _ _ _ _) as [a1|]; [|exact Logic.I]. destruct (savefs_pruned _ _ _ _) as [a2|]; [|exact Logic.I].
      split; [apply EXT; try reflexivity; exact TR|]. split; [exact TR|]. split; [unfold u2; cbn [u_final]; unfold final; rewrite ALL; reflexivity|exact UA].
    + destruct (saveInformation cfg st2 timeup pok solve) as [[s [|]]|] eqn:SV; [| |exact Logic.I]; unfold saveInformation in SV; cbv zeta in SV; fold acc0 in SV;
        (destruct (save_loop _ _ _ _ _ _ _ _ _) as [[acc sl]|] eqn:LP in SV; [|discriminate]); injection SV as <- SV.
      * rewrite fixn_sync; [|exact A|exact C|exact E].
        specialize (FX (with_saved st2 (saved_disj st2 (h_isol st2) (match h_stats st2 with s :: _ => Some (ns_obj s) | [] => None end) acc) acc) u2).
        destruct (cont _); [destruct FX|apply FX|exact Logic.I]; apply EXT; try reflexivity; exact TR.
      * apply orb_false_iff in SV. destruct SV as [-> _].
        split; [apply EXT; try reflexivity; exact TR|]. split; [exact TR|]. split; [|exact UA]. unfold u2; cbn [u_final]; unfold final.
        change (h_tree st2) with (h_tree st1) in LP. rewrite TR in LP. rewrite (visited_all _ _ _ _ _ _ _ _ _ LP), ALL. reflexivity.
  - rewrite fixn_sync; [|exact A|exact C|exact E]. specialize (FX st2 u1). destruct (cont st2); [destruct FX|apply FX|exact Logic.I]; apply EXT; try reflexivity; exact TR.
Qed.

(** A treeStatus event in a state with entries for all nodes, and the first one. *)
Definition tree_result (st : hst) (u : numst) (lab : nat -> nat) (G : list edge) (k : nat) (a : action) (ord : list cnode) : Prop :=
  match step cfg st a with
  | EvExit => True
  | EvGo st' => sync st' (step_nums cfg st u a k) lab G k
  | EvStop st' => sync st' (step_nums cfg st u a k) lab G k /\ h_tree st' = ord /\ u_final (step_nums cfg st u a k) = u_final u ++ map cn_num ord /\ u_act (step_nums cfg st u a k) = length ord
  end.
Lemma tree_sync st u lab G k ord timeup pok solve slo sup : let a := ATree ord timeup pok solve slo sup in
  live cfg st -> sync st u lab G k -> Permutation (h_tree st) ord -> tree_result st u lab G k a ord.
Proof.
  intros a [LV1 LV2] SY PM. unfold tree_result, a. cbn [step step_nums]. unfold ev_tree. apply Z.leb_gt in LV2. rewrite LV1, LV2. cbn [orb].
  destruct (first_stats cfg (set_tree st ord)) as [st1|] eqn:FS; [|exact Logic.I]. destruct (first_sync _ _ _ _ _ _ _ SY PM FS) as [-> C1].
  apply Nat.eqb_neq in C1. rewrite C1. cbv zeta.
  exact (tree_tail (set_tree st ord) u {| u_nums := u_nums u; u_pnums := u_pnums u; u_total := u_total u; u_final := u_final u; u_act := length ord |} lab G k ord timeup pok solve slo sup
    ltac:(apply (sync_ext st u); try reflexivity; assumption) eq_refl eq_refl eq_refl).
Qed.

(** Before the first treeStatus event. *)
Definition fresh (root : cnode) (st : hst) (u : numst) (lab : nat -> nat) (G : list edge) (k : nat) : Prop :=
  h_stats st = [] /\ h_pruned st = [] /\ h_count2 st = 1 /\ (forall nd, In nd (h_tree st) -> nd = root) /\ length (h_tree st) <= 1 /\
  u_nums u = [] /\ u_pnums u = [] /\ u_final u = [] /\ lab = (fun _ => 0) /\ G = [] /\ k = 0.
Lemma fresh_sync root st u lab G k ord timeup pok solve slo sup : let a := ATree ord timeup pok solve slo sup in
  root_ok (c_n cfg) ints root -> live cfg st -> fresh root st u lab G k -> Permutation (h_tree st) ord -> tree_result st u lab G k a ord.
Proof.
  intros a (R1 & R2 & R3 & _ & _ & _ & R4) [LV1 LV2] (A & B & C & D & E & F & F' & H & -> & -> & ->) PM. unfold tree_result, a. cbn [step step_nums]. unfold ev_tree. apply Z.leb_gt in LV2. rewrite LV1, LV2. cbn [orb].
  rewrite C. cbn [Nat.eqb]. destruct (first_stats cfg (set_tree st ord)) as [st1|] eqn:FS; [|exact Logic.I]. cbv zeta.
  unfold first_stats in FS. cbn [h_count2 set_tree h_tree h_stats h_lo h_up] in FS. rewrite C, A in FS. cbn [Nat.eqb] in FS. destruct ord as [|nd r]; [discriminate|].
  assert (NR : nd = root) by (apply D, (Permutation_in _ (Permutation_sym PM)); left; reflexivity). subst nd.
  assert (RN : r = []). { apply Permutation_length in PM. cbn [length] in PM. destruct r; [reflexivity|cbn [length] in PM; lia]. } subst r.
  destruct (setNodeStatistics _ _ _ _ _ _ _ _ _) as [s|] eqn:S in FS; [|discriminate].
  destruct (sns_fields cfg _ _ _ _ _ _ _ _ _ S) as (S1 & S2 & S3 & S4 & S5 & _ & _ & S8). rewrite R2 in S5, S8. cbn in S5, S8. injection FS as FS.
  apply (tree_tail st1 u {| u_nums := u_nums u ++ [0]; u_pnums := u_pnums u; u_total := 1; u_final := u_final u; u_act := length [root] |} (fun _ => 0) [] 0 [root] timeup pok solve slo sup);
    [|rewrite <- FS; reflexivity|reflexivity|reflexivity].
  rewrite F, F'. rewrite <- FS. unfold sync. cbn [h_stats h_count2 h_pruned h_tree u_nums u_pnums u_total app length]. change (h_pruned (set_tree st [root])) with (h_pruned st). rewrite B.
  assert (X1 : ns_id s = 0) by congruence. assert (X2 : ns_orig s = 0) by congruence.
  split; [discriminate|]. split; [reflexivity|]. split; [reflexivity|]. split; [reflexivity|].
  split. { intros [|[|i]] t T; cbn in T; try discriminate T. injection T as <-. split; [exact X1|]. split; [lia|]. intros _ p. rewrite S2, R3. discriminate. }
  split; [intros ? []|].
  split. { intros nd [<-|[]]. unfold node_ok. rewrite R1, R2. split; [right; reflexivity|]. split; [exact R4|].
    split; [exists s; split; [reflexivity|]; split; [exact S3|]; split; [exact S5|]; split; [exact S4|]; intros _; exact X2|].
    split; [reflexivity|]. split; [lia|]. split; [left; reflexivity|]. intros ? []. }
  split; [constructor; [intros []|constructor]|]. split; [reflexivity|].
  split; [split; [constructor|split; [constructor|intros ? []]]|].
  unfold expl, cuts. cbn [combine flat_map app]. unfold expl1. cbn [fst snd]. rewrite X1, X2, S2, R3. cbn. constructor.
Qed.

(** A misjudged child, waiting for the next event. *)
Definition waiting (st : hst) (u : numst) (lab : nat -> nat) (G : list edge) (k : nat) : Prop :=
  exists st1 u1 lab1 G1 k1 i nd c integ objv, let out := Misjudged c integ objv in
  sync st1 u1 lab1 G1 k1 /\ nth_error (h_tree st1) i = Some nd /\ k1 < k /\ c_nochoose cfg = true /\ (ci_dcode c = 0%Z \/ ci_dcode c = (-1)%Z) /\
  step cfg st1 (ABranch i out) = EvGo st /\ u = step_nums cfg st1 u1 (ABranch i out) k /\ lab = next_lab st1 lab1 nd out k /\ G = G1 ++ [branching lab1 nd out k].

Lemma waiting_sync st u lab G k ord timeup pok solve slo sup count st' : let a := ATree ord timeup pok solve slo sup in
  waiting st u lab G k -> lawful cfg ints st a -> step cfg st a = EvGo st' -> sync st' (step_nums cfg st u a count) lab G k.
Proof.
  intros a (s1 & u1 & lab1 & G1 & k1 & i & nd & c & integ & objv & SY & NK & KC & NCH & DC & S1 & U & LB & GE) (PM & LW) ST. unfold a in *.
  pose proof (nth_error_In _ _ NK) as NI. pose proof SY as (A & B & C & D & E & F & H & I & J & K & L).
  assert (LE : cn_left nd = 1 \/ cn_left nd = 2) by apply (H nd NI).
  assert (C0 : 1 <= h_count2 s1) by (rewrite <- C; destruct (h_stats s1); [contradiction|cbn; lia]).
  set (p := setPrunedNodeStatistics (c_n cfg) (h_lo s1) (h_up s1) nd (h_count2 s1) integ (ci_lo c) (ci_hi c) objv) in *.
  set (ch := mk_child c (cn_num nd) (h_count2 s1)) in *.
  assert (SH : exists back, (back = [] /\ cn_left nd = 1 \/ exists sp, back = [sp] /\ cn_left nd = 2 /\ back_rec sp (h_count2 s1) nd) /\
    h_stats st = h_stats s1 ++ back /\ h_pruned st = h_pruned s1 ++ [p] /\ h_count2 st = Datatypes.S (h_count2 s1) + length back /\
    h_tree st = remove_nth i (h_tree s1) ++ [ch] ++ (if Nat.eqb (cn_left nd) 2 then [renumber (one_less nd) (Datatypes.S (h_count2 s1))] else [])).
  { cbn [step] in S1. unfold ev_branch in S1. rewrite NK in S1. destruct (Nat.eqb (cn_left nd) 0); [discriminate|]. destruct (h_end s1 || _); [discriminate|]. cbv zeta in S1.
    cbn [one_less cn_left] in S1. destruct LE as [L1|L2].
    - rewrite L1 in S1. cbn [Nat.sub Nat.eqb] in S1. injection S1 as <-. exists []. split; [left; split; [reflexivity|exact L1]|]. cbn [h_stats h_pruned h_count2 h_tree length].
      rewrite L1. cbn [Nat.eqb]. rewrite !app_nil_r. split; [reflexivity|]. split; [reflexivity|]. split; [lia|reflexivity].
    - rewrite L2 in S1. cbn [Nat.sub Nat.eqb] in S1. destruct (setNodeStatistics _ _ _ _ (one_less nd) _ _ _ _) as [sp|] eqn:SP in S1; [|discriminate].
      injection S1 as <-. pose proof (back_spec _ _ _ _ _ _ _ _ _ SP L2) as BR. rewrite Nat.add_0_r in BR. exists [sp]. split; [right; exists sp; split; [reflexivity|split; [exact L2|exact BR]]|].
      cbn [h_stats h_pruned h_count2 h_tree length]. rewrite L2. cbn [Nat.eqb]. rewrite Nat.add_1_r. split; [reflexivity|]. split; [reflexivity|]. split; [lia|reflexivity]. }
  destruct SH as (back & BK & H1 & H2 & H3 & H4).
  assert (NR : ~ recorded st).
  { intros [X|X]; rewrite H1 in X; [destruct (h_stats s1); [contradiction|discriminate]|]. rewrite app_length, H3 in X. lia. }
  destruct LW as [LW|(CL & TU & _)]; [contradiction|]. subst timeup.
  assert (UN : u_nums u = u_nums u1 ++ (if Nat.eqb (cn_left nd) 2 then [lab1 (cn_num nd)] else [])).
  { rewrite U. cbn [step_nums]. rewrite NK. cbn [u_nums]. rewrite (nth_lab _ _ _ _ _ _ SY NI). reflexivity. }
  assert (UP : u_pnums u = u_pnums u1 ++ [k]) by (rewrite U; cbn [step_nums]; rewrite NK; reflexivity).
  assert (UT : u_total u = Datatypes.S k) by (rewrite U; cbn [step_nums]; rewrite NK; cbn [u_total]; rewrite J; lia).
  cbn [step] in ST. unfold ev_tree in ST. cbn [step_nums]. destruct (h_end st || _); [discriminate|].
  assert (FS : first_stats cfg (set_tree st ord) = Some (set_tree st ord)).
  { unfold first_stats. cbn [h_count2 set_tree]. destruct (Nat.eqb_spec (h_count2 st) 1); [lia|reflexivity]. }
  rewrite FS in ST |- *. destruct (Nat.eqb_spec (h_count2 st) 1) as [X|_]; [lia|]. cbv zeta in ST |- *.
  assert (Q : (c_max cfg <=? h_leaf (set_leaf (set_tree st ord) (count_leaves cfg (set_tree st ord))))%Z = false) by (apply Z.leb_gt; exact CL).
  rewrite Q in ST |- *. cbn [orb] in ST |- *.
  set (v := {| u_nums := u_nums u; u_pnums := u_pnums u; u_total := u_total u; u_final := u_final u; u_act := length ord |}).
  set (sA := set_leaf (set_tree st ord) (count_leaves cfg (set_tree st ord))) in *.
  assert (A1 : h_stats sA = h_stats s1 ++ back) by exact H1. assert (A2 : h_pruned sA = h_pruned s1 ++ [p]) by exact H2.
  assert (A3 : h_count2 sA = Datatypes.S (h_count2 s1) + length back) by exact H3. assert (A4 : h_tree sA = ord) by reflexivity.
  assert (FD : forall x, find (fun m => cn_num m =? ns_id p) ord = Some x -> x = ch).
  { intros x X. apply find_some in X. destruct X as [X1 X2]. apply Nat.eqb_eq in X2. change (ns_id p) with (h_count2 s1) in X2.
    apply (Permutation_in _ (Permutation_sym PM)) in X1. rewrite H4 in X1. apply in_app_or in X1. destruct X1 as [X1|[X1|X1]].
    - pose proof (num_lt _ _ _ _ _ _ (H x (remove_in _ _ _ X1))). lia.
    - symmetry. exact X1.
    - destruct (Nat.eqb (cn_left nd) 2); [|destruct X1]. destruct X1 as [<-|[]]. cbn [renumber cn_num] in X2. lia. }
  destruct (last_id _ A E) as (l & b & R1 & R2 & R3).
  unfold fixup in ST. rewrite NCH in ST. cbn [negb] in ST. unfold fix_nums. rewrite NCH. cbn [negb].
  destruct BK as [[-> L1]|(sp & -> & L2 & BR)].
  - rewrite app_nil_r in A1. rewrite A1, R1, A2, rev_app_distr in ST |- *. cbn [rev app] in ST |- *.
    cbn [length] in A3. replace (h_count2 sA =? Datatypes.S (ns_id l)) with false in ST |- * by (symmetry; apply Nat.eqb_neq; lia).
    rewrite A4 in ST. destruct (find _ ord) as [x|] eqn:FI in ST; [|discriminate]. apply FD in FI. subst x.
    cbn [set_stats ns_id] in ST. change (ns_id p) with (h_count2 s1) in ST |- *.
    replace (ns_id l =? h_count2 s1) with false in ST |- * by (symmetry; apply Nat.eqb_neq; lia).
    injection ST as <-.
    assert (RN : rev (u_nums v) <> []). { unfold v; cbn [u_nums]. rewrite UN, L1. cbn [Nat.eqb]. rewrite app_nil_r. intro X. apply (f_equal (@length nat)) in X. rewrite rev_length, B, R2 in X. discriminate. }
    destruct (rev (u_nums v)) as [|ln before] eqn:RV; [contradiction|]. unfold v at 1. cbn [u_pnums]. rewrite UP, rev_app_distr. cbn [rev app].
    rewrite LB, GE.
    eapply (explored_sync s1 u1 lab1 G1 k1 i nd ch _ [] k (Misjudged c integ objv) SY NK KC Logic.I).
    3: cbn [set_stats h_stats]; reflexivity.
    + split; [reflexivity|]. split; [reflexivity|]. split; [reflexivity|]. split; [reflexivity|]. split; [reflexivity|]. split; [reflexivity|]. split; [reflexivity|]. split; [reflexivity|exact DC].
    + left. split; [reflexivity|exact L1].
    + cbn [set_stats h_pruned]. apply rev_involutive.
    + cbn [set_stats h_count2 length]. lia.
    + cbn [set_stats h_tree]. rewrite A4. rewrite <- H4. apply Permutation_sym. exact PM.
    + cbn [u_nums v]. rewrite UN, L1. cbn [Nat.eqb]. rewrite !app_nil_r. reflexivity.
    + cbn [u_pnums]. apply rev_involutive.
    + cbn [u_total v]. exact UT.
  - pose proof BR as (B1 & B2 & B3 & B4 & B5 & B6). rewrite A1, A2, !rev_app_distr in ST |- *. cbn [rev app] in ST |- *. rewrite B1 in ST |- *.
    cbn [length] in A3. replace (h_count2 sA =? Datatypes.S (h_count2 s1)) with false in ST |- * by (symmetry; apply Nat.eqb_neq; lia).
    rewrite A4 in ST. destruct (find _ ord) as [x|] eqn:FI in ST; [|discriminate]. apply FD in FI. subst x.
    cbn [set_stats ns_id] in ST. change (ns_id p) with (h_count2 s1) in ST |- *. rewrite Nat.eqb_refl in ST |- *. injection ST as <-.
    assert (V1 : rev (u_nums v) = lab1 (cn_num nd) :: rev (u_nums u1)). { unfold v. cbn [u_nums]. rewrite UN, L2. cbn [Nat.eqb]. rewrite rev_app_distr. reflexivity. }
    assert (V2 : rev (u_pnums v) = k :: rev (u_pnums u1)). { unfold v. cbn [u_pnums]. rewrite UP, rev_app_distr. reflexivity. }
    rewrite V1, V2.
    rewrite LB, GE.
    eapply (explored_sync s1 u1 lab1 G1 k1 i nd ch _ [_] k (Misjudged c integ objv) SY NK KC Logic.I).
    3: cbn [set_stats h_stats]; rewrite rev_involutive; cbn [app]; reflexivity.
    + split; [reflexivity|]. split; [reflexivity|]. split; [reflexivity|]. split; [reflexivity|]. split; [reflexivity|]. split; [reflexivity|]. split; [reflexivity|]. split; [reflexivity|exact DC].
    + right. eexists. split; [reflexivity|]. split; [exact L2|]. split; [reflexivity|]. split; [exact B2|]. split; [exact B3|]. split; [exact B4|]. split; [exact B5|exact B6].
    + cbn [set_stats h_pruned]. apply rev_involutive.
    + cbn [set_stats h_count2 length]. lia.
    + cbn [set_stats h_tree]. rewrite A4. rewrite <- H4. apply Permutation_sym. exact PM.
    + cbn [u_nums]. rewrite rev_involutive, L2. cbn [Nat.eqb app]. reflexivity.
    + cbn [u_pnums]. apply rev_involutive.
    + cbn [u_total v]. exact UT.
Qed.

Lemma waiting_unrecorded st u lab G k : waiting st u lab G k -> ~ recorded st.
Proof.
  intros (s1 & u1 & lab1 & G1 & k1 & i & nd & c & integ & objv & SY & NK & KC & NCH & DC & S1 & U & LB & GE).
  pose proof (nth_error_In _ _ NK) as NI. pose proof SY as (A & B & C & D & E & F & H & I & J & K & L).
  cbn [step] in S1. unfold ev_branch in S1. rewrite NK in S1. destruct (Nat.eqb (cn_left nd) 0); [discriminate|]. destruct (h_end s1 || _); [discriminate|]. cbv zeta in S1.
  destruct (Nat.eqb (cn_left (one_less nd)) 0).
  - injection S1 as <-. intros [X|X]; cbn [h_stats h_count2] in X; [contradiction|lia].
  - destruct (setNodeStatistics _ _ _ _ (one_less nd) _ _ _ _) as [sp|]; [|discriminate]. injection S1 as <-. intros [X|X]; cbn [h_stats h_count2] in X; [destruct (h_stats s1); discriminate|].
    rewrite app_length in X. cbn [length] in X. lia.
Qed.
Lemma waiting_no_stop st u lab G k ord timeup pok solve slo sup st' : let a := ATree ord timeup pok solve slo sup in
  live cfg st -> waiting st u lab G k -> lawful cfg ints st a -> step cfg st a <> EvStop st'.
Proof.
  intros a [LV1 LV2] W (PM & LW) ST. destruct LW as [LW|(CL & TU & _)]; [exact (waiting_unrecorded _ _ _ _ _ W LW)|]. unfold a in ST. subst timeup.
  cbn [step] in ST. unfold ev_tree in ST. apply Z.leb_gt in LV2. rewrite LV1, LV2 in ST. cbn [orb] in ST. destruct (first_stats cfg (set_tree st ord)) as [st1|] eqn:FS; [|discriminate]. cbv zeta in ST.
  assert (Q : (c_max cfg <=? h_leaf (set_leaf st1 (count_leaves cfg st1)))%Z = false) by (apply Z.leb_gt; cbn [h_leaf set_leaf]; rewrite (first_stats_count cfg _ _ FS); exact CL).
  rewrite Q in ST. cbn [orb] in ST. destruct (fixup _ _ _ _); discriminate.
Qed.

Lemma searched_history s0 st u lab G k : searched cfg ints s0 st u lab G k -> exists h, history cfg (lawful cfg ints) s0 h st.
Proof.
  induction 1 as [|st u lab G k i out nd count st' _ (h & IH) LW _ _ ST|st u lab G k a st' _ (h & IH) LW _ ST]; [exists []; constructor| |];
    eexists; exact (hist_step _ _ _ _ _ _ _ IH LW ST).
Qed.

Section Run.
Variables (lo up : nat -> option Q) (root : cnode) (d : disj).
Hypothesis Hroot : root_ok (c_n cfg) ints root.
Hypothesis Hmax : (0 < c_max cfg)%Z.

Lemma searched_live st u lab G k : searched cfg ints (h_init lo up root d) st u lab G k -> live cfg st.
Proof using Hroot Hmax.
  intro S. destruct (searched_history _ _ _ _ _ _ S) as (h & HH).
  apply (run_inv cfg ints (fun _ => False) lo up root) with (d := d); [intros ? []|exact Hroot|intros ? []|exact Hmax|].
  apply (history_run cfg ints _ h st (fun _ => False) HH). intros ? [].
Qed.

Lemma searched_state st u lab G k : searched cfg ints (h_init lo up root d) st u lab G k ->
  fresh root st u lab G k \/ sync st u lab G k \/ waiting st u lab G k.
Proof using Hroot Hmax.
  induction 1 as [|st u lab G k i out nd count st' S IH LW NK KC ST|st u lab G k a st' S IH LW NB ST].
  - left. unfold fresh. cbn. repeat (split; [reflexivity|]). split; [intros nd [<-|[]]; reflexivity|]. split; [lia|]. repeat (split; [reflexivity|]). reflexivity.
  - pose proof LW as (L1 & L2 & L3). destruct IH as [IH|[IH|IH]]; [exfalso; apply L1; apply IH| |exfalso; exact (waiting_unrecorded _ _ _ _ _ IH L2)].
    right. pose proof (branch_sync _ _ _ _ _ _ _ _ _ _ IH NK KC LW ST) as BS. destruct out as [c|integ slo sup objv|c integ objv]; [left; exact BS|left; exact BS|right].
    exists st, u, lab, G, k, i, nd, c, integ, objv. cbv zeta. destruct L3 as (N1 & _ & _ & _ & N2). repeat (split; [assumption|]). split; [reflexivity|split; reflexivity].
  - pose proof (searched_live _ _ _ _ _ S) as LV. destruct a as [ord timeup pok solve slo sup|i out|i|x]; [|exfalso; exact (NB i out eq_refl)| |].
    + right. left. destruct IH as [IH|[IH|IH]].
      * pose proof (fresh_sync root st u lab G k ord timeup pok solve slo sup Hroot LV IH (proj1 LW)) as TR. unfold tree_result in TR. rewrite ST in TR. exact TR.
      * pose proof (tree_sync st u lab G k ord timeup pok solve slo sup LV IH (proj1 LW)) as TR. unfold tree_result in TR. rewrite ST in TR. exact TR.
      * exact (waiting_sync st u lab G k ord timeup pok solve slo sup k st' IH LW ST).
    + cbn [step step_nums] in *. injection ST as <-. destruct IH as [IH|[IH|IH]].
      * left. destruct IH as (A & B & C & D & E & F). unfold fresh. cbn [set_tree h_stats h_pruned h_count2 h_tree]. repeat (split; [assumption|]). split; [intros nd X; apply D; exact (remove_in _ _ _ X)|].
        split; [|exact F]. unfold remove_nth. rewrite app_length, firstn_length, skipn_length. lia.
      * right. left. destruct IH as (A & B & C & D & E & F & H & I & J). unfold sync. cbn [set_tree h_stats h_pruned h_count2 h_tree]. repeat (split; [assumption|]).
        split; [intros nd X; apply H; exact (remove_in _ _ _ X)|]. split; [|exact J]. apply (NoDup_remove_nth (h_tree st) i (fun nd => lab (cn_num nd)) I).
      * exfalso. exact (waiting_unrecorded _ _ _ _ _ IH LW).
    + cbn [step step_nums] in *. destruct (h_end st || _); [discriminate|]. injection ST as <-. destruct IH as [IH|[IH|IH]].
      * left. exact IH.
      * right. left. apply (sync_ext st u); try reflexivity. exact IH.
      * exfalso. exact (waiting_unrecorded _ _ _ _ _ IH LW).
Qed.

(** The end of the search. *)
Lemma searched_stop st u lab G k a st' : searched cfg ints (h_init lo up root d) st u lab G k -> lawful cfg ints st a -> step cfg st a = EvStop st' ->
  let u' := step_nums cfg st u a k in
  sync st' u' lab G k /\ u_final u' = u_final u ++ map cn_num (h_tree st') /\ u_act u' = length (h_tree st').
Proof using Hroot Hmax.
  intros S LW ST u'. pose proof (searched_live _ _ _ _ _ S) as LV. destruct (live_no_stop cfg st a st' LV ST) as (ord & timeup & pok & solve & slo & sup & ->).
  destruct (searched_state _ _ _ _ _ S) as [IH|[IH|IH]].
  - pose proof (fresh_sync root st u lab G k ord timeup pok solve slo sup Hroot LV IH (proj1 LW)) as TR. unfold tree_result in TR. rewrite ST in TR. destruct TR as (T1 & -> & T2). split; [exact T1|exact T2].
  - pose proof (tree_sync st u lab G k ord timeup pok solve slo sup LV IH (proj1 LW)) as TR. unfold tree_result in TR. rewrite ST in TR. destruct TR as (T1 & -> & T2). split; [exact T1|exact T2].
  - exfalso. exact (waiting_no_stop _ _ _ _ _ _ _ _ _ _ _ _ LV IH LW ST).
Qed.
End Run.
End Sync.

(** * The text for TreePlot. *)
Lemma listed_snoc l e : (forall a, In a l -> a <> []) -> listed (l ++ [e]) = add_edge (listed l) e.
Proof.
  intro N. unfold add_edge. induction l as [|a l IH]; [reflexivity|].
  assert (IH' := IH (fun b B => N b (or_intror B))). destruct l as [|b l]; cbn [app listed].
  - destruct a as [|c a]; [exfalso; apply (N []); [left; reflexivity|reflexivity]|]. cbn [app]. rewrite <- app_assoc. reflexivity.
  - cbn [app listed] in IH'. rewrite IH'. destruct (listed (b :: l)) as [|c r] eqn:Q.
    + exfalso. destruct b as [|? b]; [apply (N []); [right; left; reflexivity|reflexivity]|]. destruct l; discriminate Q.
    + cbn [listed] in Q. rewrite Q. destruct a as [|h a]; [exfalso; apply (N []); [left; reflexivity|reflexivity]|]. cbn [app]. rewrite <- !app_assoc. reflexivity.
Qed.
Lemma says_nonempty E a : In a (map edge_says E) -> a <> [].
Proof. intro X. apply in_map_iff in X. destruct X as (e & <- & _). discriminate. Qed.
Lemma listed_edge E e : listed (map edge_says (E ++ [e])) = add_edge (listed (map edge_says E)) (edge_says e).
Proof. rewrite map_app. cbn [map]. apply listed_snoc. apply says_nonempty. Qed.

Definition pair_of (t : tstat) : nodestat * nat := (t_s t, t_num t).
Lemma combine_length_eq {A B} (a : list A) (b : list B) : length a = length b -> length (combine a b) = length a.
Proof. intro H. rewrite combine_length. lia. Qed.
Lemma with_pairs l nums f : length nums = length l -> map pair_of (with_nums l nums f) = combine l nums.
Proof.
  intro H. unfold with_nums. rewrite map_map. unfold pair_of. cbn [t_s t_num]. transitivity (map snd (combine (seq 0 (length l)) (combine l nums))).
  - apply map_ext. intros [i [a b]]. reflexivity.
  - assert (X : forall {A B} (u : list A) (v : list B), length u = length v -> map snd (combine u v) = v).
    { induction u as [|x u IH]; intros [|y v] HL; cbn in *; try discriminate; [reflexivity|]. f_equal. apply IH. lia. }
    apply X. rewrite seq_length, combine_length. lia.
Qed.
Lemma with_nth l nums f i s v : length nums = length l -> nth_error l i = Some s -> nth_error nums i = Some v ->
  exists t, nth_error (with_nums l nums f) i = Some t /\ t_s t = s /\ t_num t = v.
Proof.
  intros H S V. pose proof (with_pairs l nums f H) as WP.
  assert (C : nth_error (combine l nums) i = Some (s, v)).
  { clear WP H. revert nums i S V. induction l as [|a l IH]; intros [|b nums] [|i] S V; cbn in *; try discriminate; [injection S as ->; injection V as ->; reflexivity|apply IH; assumption]. }
  rewrite <- WP in C. rewrite nth_error_map in C. destruct (nth_error (with_nums l nums f) i) as [t|]; [|discriminate]. exists t. split; [reflexivity|]. cbn in C. injection C as C1 C2. split; assumption.
Qed.
Lemma edge_at_nth d R N f p num kd : length N = length R -> p_stats d = with_nums R N f -> p < length R ->
  exists q v, nth_error (p_stats d) p = Some q /\ t_num q = v /\ edge_at R N p num kd = [{| e_from := v; e_to := num; e_var := ns_var (t_s q); e_up := (0 <? ns_way (t_s q))%Z; e_kind := kd |}].
Proof.
  intros L PS P. destruct (nth_error R p) as [s|] eqn:S; [|apply nth_error_None in S; lia]. destruct (nth_error N p) as [v|] eqn:V; [|apply nth_error_None in V; lia].
  destruct (with_nth R N f p s v L S V) as (t & T1 & T2 & T3). exists t, v. rewrite PS. split; [exact T1|]. split; [exact T3|]. unfold edge_at. rewrite S, V, T2. reflexivity.
Qed.

Section Plot.
Variables (d : drawing) (R : list nodestat) (N : list nat) (f : nat -> bool * Q).
Hypothesis HL : length N = length R.
Hypothesis HS : p_stats d = with_nums R N f.

Lemma fold_explored : forall ts E0, (forall t, In t ts -> ns_orig (t_s t) = ns_id (t_s t) -> forall p, ns_parent (t_s t) = Some p -> p < length R) ->
  fold_left (plot_explored d) ts (Some (listed (map edge_says E0))) = Some (listed (map edge_says (E0 ++ flat_map (expl1 R N) (map pair_of ts)))).
Proof using HL HS.
  induction ts as [|t ts IH]; intros E0 H; [cbn; rewrite app_nil_r; reflexivity|].
  cbn [fold_left map flat_map]. rewrite app_assoc. rewrite <- (IH (E0 ++ expl1 R N (pair_of t))) by (intros t' X; apply H; right; exact X). f_equal.
  unfold plot_explored, expl1, pair_of. cbn [fst snd]. specialize (H t (or_introl eq_refl)). destruct (Nat.eqb_spec (ns_orig (t_s t)) (ns_id (t_s t))) as [EO|]; cbn [negb]; [|rewrite app_nil_r; reflexivity].
  destruct (ns_parent (t_s t)) as [p|] eqn:P; [|rewrite app_nil_r; reflexivity].
  destruct (edge_at_nth d R N f p (t_num t) Explored HL HS (H EO p eq_refl)) as (q & v & Q1 & Q2 & Q3). rewrite Q1, Q3, listed_edge. rewrite Q2. reflexivity.
Qed.
Lemma fold_pruned : forall ts E0, (forall t, In t ts -> exists p, ns_parent (t_s t) = Some p /\ p < length R) ->
  fold_left (plot_pruned d) ts (Some (listed (map edge_says E0))) = Some (listed (map edge_says (E0 ++ flat_map (cut1 R N) (map pair_of ts)))).
Proof using HL HS.
  induction ts as [|t ts IH]; intros E0 H; [cbn; rewrite app_nil_r; reflexivity|].
  cbn [fold_left map flat_map]. rewrite app_assoc. rewrite <- (IH (E0 ++ cut1 R N (pair_of t))) by (intros t' X; apply H; right; exact X). f_equal.
  unfold plot_pruned, cut1, pair_of. cbn [fst snd]. destruct (H t (or_introl eq_refl)) as (p & P & PL). rewrite P.
  destruct (edge_at_nth d R N f p (t_num t) Cut HL HS PL) as (q & v & Q1 & Q2 & Q3). rewrite Q1, Q3, listed_edge. rewrite Q2. unfold edge_text, edge_says, int_of. cbn [e_from e_to e_var e_kind].
  rewrite <- !app_assoc. reflexivity.
Qed.

Definition leaf_edge (lab : nat -> nat) (nd : cnode) (up : bool) (num : nat) : edge :=
  {| e_from := lab (cn_num nd); e_to := num; e_var := cn_var nd; e_up := up; e_kind := Open |}.
Fixpoint leaf_list (lab : nat -> nat) (tree : list cnode) (from : nat) : list edge :=
  match tree with
  | [] => []
  | nd :: r => map (fun x => leaf_edge lab nd (snd x) (fst x)) (combine (seq from (length (open_sides nd))) (open_sides nd)) ++ leaf_list lab r (from + length (open_sides nd))
  end.
Lemma leaf_list_of lab tree : forall from, leaves_of lab tree from (leaf_list lab tree from).
Proof.
  induction tree as [|nd r IH]; intro from; [split; [reflexivity|split; [reflexivity|constructor]]|].
  destruct (IH (from + length (open_sides nd))) as (A & B & C). cbn [leaf_list]. unfold leaves_of, open_branches. cbn [flat_map]. unfold open_sides at 1 2 3 4 5 6 7 8 9.
  assert (LB : forall l : list bool, map (fun e => (e_from e, e_var e, e_up e)) (map (fun x => leaf_edge lab nd (snd x) (fst x)) (combine (seq from (length l)) l)) = map (fun up => (lab (cn_num nd), cn_var nd, up)) l /\
    map e_to (map (fun x => leaf_edge lab nd (snd x) (fst x)) (combine (seq from (length l)) l)) = seq from (length l) /\
    Forall (fun e => e_kind e = Open) (map (fun x => leaf_edge lab nd (snd x) (fst x)) (combine (seq from (length l)) l)) /\
    length (map (fun x => leaf_edge lab nd (snd x) (fst x)) (combine (seq from (length l)) l)) = length l).
  { clear. intro l. revert from. induction l as [|u l IHl]; intro from; [cbn; repeat split; constructor|]. destruct (IHl (S from)) as (X1 & X2 & X3 & X4). cbn [length seq combine map].
    split; [f_equal; exact X1|]. split; [f_equal; exact X2|]. split; [constructor; [reflexivity|exact X3]|f_equal; exact X4]. }
  fold (open_sides nd). destruct (LB (open_sides nd)) as (X1 & X2 & X3 & X4).
  split; [rewrite map_app; f_equal; [exact X1|exact A]|]. split.
  - rewrite map_app, app_length, X2, B, X4, seq_app. reflexivity.
  - apply Forall_app. split; assumption.
Qed.
Lemma fold_leaves lab G k : forall tree E0 from, (forall nd, In nd tree -> node_ok R N lab G k nd) ->
  fold_left (plot_leaf d) (map cn_num tree) (Some (listed (map edge_says E0), from)) =
  Some (listed (map edge_says (E0 ++ leaf_list lab tree from)), from + length (leaf_list lab tree from)).
Proof using HL HS.
  induction tree as [|nd r IH]; intros E0 from H; [cbn; rewrite app_nil_r, Nat.add_0_r; reflexivity|].
  destruct (H nd (or_introl eq_refl)) as (LE & _ & (s & S1 & S2 & S3 & _) & N1 & _).
  destruct (with_nth R N f (cn_num nd) s _ HL S1 N1) as (t & T1 & T2 & T3). rewrite <- HS in T1.
  assert (IH' := fun E1 fr => IH E1 fr (fun m M => H m (or_intror M))). cbn [map fold_left leaf_list].
  assert (ONE : forall num up, edge_text (t_num t) (int_of num) (ns_var s) = edge_says (leaf_edge lab nd up num)).
  { intros. rewrite T3, S2. reflexivity. }
  destruct LE as [L1|L2].
  - unfold open_sides. rewrite L1. cbn [Nat.eqb length seq combine map fst snd]. unfold plot_leaf at 2. rewrite T1, T2, S3, L1. cbn [Nat.sub seq fold_left fst snd].
    rewrite (ONE from (negb (cn_up nd))), <- listed_edge. replace (S from) with (from + 1) by lia. rewrite IH'. cbn [app]. rewrite <- app_assoc. cbn [app length]. f_equal. f_equal. lia.
  - unfold open_sides. rewrite L2. cbn [Nat.eqb length seq combine map fst snd]. unfold plot_leaf at 2. rewrite T1, T2, S3, L2. cbn [Nat.sub seq fold_left fst snd].
    rewrite (ONE from (negb (cn_up nd))), (ONE (S from) (cn_up nd)), <- !listed_edge. replace (S (S from)) with (from + 2) by lia. rewrite IH'. cbn [app]. rewrite <- !app_assoc. cbn [app length]. f_equal. f_equal. lia.
Qed.
End Plot.

(** All edges together. *)
Lemma NoDup_app_iff_local {A} (a b : list A) : NoDup a -> NoDup b -> (forall x, In x a -> In x b -> False) -> NoDup (a ++ b).
Proof.
  induction a as [|x a IH]; intros Ha Hb Hab; [exact Hb|]. inversion Ha as [|? ? H1 H2]; subst. cbn [app]. constructor.
  - intro X. apply in_app_or in X. destruct X as [X|X]; [exact (H1 X)|exact (Hab x (or_introl eq_refl) X)].
  - apply IH; [exact H2|exact Hb|]. intros y Y1 Y2. exact (Hab y (or_intror Y1) Y2).
Qed.
Lemma seq_out k n x : In x (seq (S k) n) -> k < x.
Proof. intro H. apply in_seq in H. lia. Qed.
Lemma whole_tree st u lab G k L : sync st u lab G k -> leaves_of lab (h_tree st) (S k) L -> is_tree (G ++ L) /\ two_sided (G ++ L).
Proof.
  intros (_ & _ & _ & _ & _ & _ & H & I & _ & (K1 & K2 & K3) & _) (L1 & L2 & _).
  assert (LI : forall e, In e L -> exists nd, In nd (h_tree st) /\ e_from e = lab (cn_num nd) /\ In (e_up e) (open_sides nd)).
  { intros e X. apply (in_map (fun e => (e_from e, e_var e, e_up e))) in X. rewrite L1 in X. unfold open_branches in X. apply in_flat_map in X. destruct X as (nd & N1 & N2).
    apply in_map_iff in N2. destruct N2 as (up & E & N2). injection E as E1 E2 E3. exists nd. split; [exact N1|]. split; [symmetry; exact E1|rewrite <- E3; exact N2]. }
  split; [split|].
  - rewrite map_app. apply NoDup_app_iff_local; [exact K1|rewrite L2; apply seq_NoDup|]. intros x X Y. rewrite L2 in Y. apply seq_out in Y. apply in_map_iff in X. destruct X as (e & <- & X). destruct (K3 e X) as (_ & Z & _). lia.
  - intros e X. apply in_app_or in X. destruct X as [X|X].
    + destruct (K3 e X) as (A & _ & B). split; [exact A|]. apply explored_app. exact B.
    + destruct (LI e X) as (nd & N1 & N2 & _). destruct (H nd N1) as (_ & _ & _ & _ & LK & LT & _). rewrite N2. split.
      * apply (in_map e_to) in X. rewrite L2 in X. apply seq_out in X. lia.
      * apply explored_app. exact LT.
  - unfold two_sided. rewrite map_app. apply NoDup_app_iff_local; [exact K2| |].
    + assert (ML : map (fun e => (e_from e, e_up e)) L = flat_map (fun nd => map (fun up => (lab (cn_num nd), up)) (open_sides nd)) (h_tree st)).
      { transitivity (map (fun x : nat * nat * bool => (fst (fst x), snd x)) (map (fun e => (e_from e, e_var e, e_up e)) L)); [rewrite map_map; reflexivity|]. rewrite L1. unfold open_branches.
        clear. induction (h_tree st) as [|nd r IH]; [reflexivity|]. cbn [flat_map]. rewrite map_app, IH, map_map. reflexivity. }
      rewrite ML. clear - I. induction (h_tree st) as [|nd r IH]; [constructor|]. cbn [flat_map map] in *. inversion I as [|? ? I1 I2]; subst. apply NoDup_app_iff_local; [|exact (IH I2)|].
      * unfold open_sides. destruct (Nat.eqb (cn_left nd) 2); cbn [map]; [|constructor; [intros []|constructor]]. constructor; [|constructor; [intros []|constructor]]. intros [X|[]]. injection X as X. destruct (cn_up nd); discriminate.
      * intros x X Y. apply in_map_iff in X. destruct X as (up & <- & _). apply in_flat_map in Y. destruct Y as (m & M1 & M2). apply in_map_iff in M2. destruct M2 as (up' & E & _). injection E as E _.
        apply I1. rewrite <- E. apply (in_map (fun nd => lab (cn_num nd))). exact M1.
    + intros x X Y. apply in_map_iff in X. destruct X as (e & <- & X). apply in_map_iff in Y. destruct Y as (e' & E & Y). injection E as E1 E2.
      destruct (LI e' Y) as (nd & N1 & N2 & N3). destruct (H nd N1) as (_ & _ & _ & _ & _ & _ & SD). destruct (SD e X ltac:(congruence)) as [S1 S2].
      unfold open_sides in N3. rewrite S1 in N3. cbn in N3. destruct N3 as [N3|[]]. rewrite <- N3 in E2. rewrite S2 in E2. destruct (cn_up nd); discriminate.
Qed.

(** The text drawn. *)
Lemma plot_text st u lab G k found pfound : sync st u lab G k -> u_act u = length (h_tree st) -> u_final u = map cn_num (h_tree st) ->
  exists E L, generateTreePlotString (drawing_of st u found pfound) = Some (plot_says E) /\ Permutation E (G ++ L) /\ leaves_of lab (h_tree st) (S k) L.
Proof.
  intros SY UA UF. pose proof SY as (A & B & C & D & E & F & H & I & J & K & PE).
  exists ((expl (h_stats st) (u_nums u) ++ cuts (h_stats st) (u_nums u) (h_pruned st) (u_pnums u)) ++ leaf_list lab (h_tree st) (S k)), (leaf_list lab (h_tree st) (S k)).
  split; [|split; [apply Permutation_app_tail; exact PE|apply leaf_list_of]].
  set (d := drawing_of st u found pfound). assert (HS : p_stats d = with_nums (h_stats st) (u_nums u) found) by reflexivity. unfold generateTreePlotString.
  assert (F1 := fold_explored d (h_stats st) (u_nums u) found B HS (p_stats d) []).
  match type of F1 with _ -> _ = ?x => replace (fold_left (plot_explored d) (p_stats d) (Some [])) with x end.
  2:{ symmetry. apply F1. clear F1. intros t X EO p P. apply (in_map pair_of) in X. rewrite HS, with_pairs in X by exact B. apply in_combine_l in X. apply In_nth_error in X. destruct X as [i X]. destruct (E i _ X) as (O1 & _ & O2).
      specialize (O2 ltac:(congruence) p P). apply nth_lt in X. lia. }
  assert (PP : map pair_of (p_pruned d) = combine (h_pruned st) (u_pnums u)) by (apply with_pairs; exact D).
  rewrite (fold_pruned d (h_stats st) (u_nums u) found B HS).
  2:{ intros t X. apply (in_map pair_of) in X. rewrite PP in X. apply in_combine_l in X. exact (F _ X). }
  rewrite PP. rewrite HS, with_pairs by exact B. fold (expl (h_stats st) (u_nums u)). fold (cuts (h_stats st) (u_nums u) (h_pruned st) (u_pnums u)).
  assert (PL : p_leaves d = map cn_num (h_tree st)) by (unfold d, drawing_of; cbn [p_leaves]; rewrite UA, UF; apply firstn_all2; rewrite map_length; lia).
  rewrite PL. assert (PN : p_nodes d = S k) by exact J. rewrite PN. rewrite (fold_leaves d (h_stats st) (u_nums u) found B HS lab G k (h_tree st) _ (S k) H). reflexivity.
Qed.
