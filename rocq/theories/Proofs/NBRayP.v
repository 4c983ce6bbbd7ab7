From Verif Require Import Prelude Model.Tolerance Model.LP Model.BasisStatus Model.NBSpace
  Model.PRCollection Spec.LPSpec Spec.NBSpec Spec.TermSpec Proofs.ToleranceP Proofs.NBPointP.
From Coq Require Import Permutation.

Definition entry_val (o : option (Q + Q)) : Q :=
  match o with None => 0 | Some (inl q) => q | Some (inr q) => q end.

Definition ray_list (l : list (nat * option (Q + Q))) : packed :=
  flat_map (fun e => match snd e with
                     | None => [] | Some (inl q) => [(fst e, q)] | Some (inr q) => [(fst e, q)] end) l.

Lemma ray_classify_split eps rc l : forall nt ti o nt' ti' o',
  fold_left (ray_classify eps rc) l (nt, ti, o) = (nt', ti', o') ->
  exists a b c, nt' = nt ++ a /\ ti' = ti ++ b /\ Permutation (ray_list l) (a ++ b ++ c) /\
    (forall e, In e (b ++ c) -> Qabs (snd e) < eps).
Proof.
  induction l as [|e l IH]; intros nt ti o nt' ti' o' H; cbn [fold_left] in H.
  - inversion H; subst. exists [], [], []. rewrite !app_nil_r. repeat split; try constructor.
    intros e [].
  - unfold ray_classify at 2 in H. cbn [ray_list flat_map]. fold (ray_list l).
    destruct e as [i [[q|q]|]]; cbn [fst snd] in *.
    + destruct (IH _ _ _ _ _ _ H) as (a & b & c & H1 & H2 & H3 & H4).
      exists ((i, q) :: a), b, c. split; [rewrite H1, <- app_assoc; reflexivity|].
      split; [exact H2|]. split; [|exact H4]. cbn [app]. rewrite H3. reflexivity.
    + unfold classify in H. cbn [fst snd] in H. destruct (isZero q eps) eqn:Z.
      * apply isZero_iff in Z. destruct (isZero (q * rc i) eps).
        -- destruct (IH _ _ _ _ _ _ H) as (a & b & c & H1 & H2 & H3 & H4).
           exists a, b, ((i, q) :: c). split; [exact H1|]. split; [exact H2|]. split.
           ++ cbn [app]. rewrite H3, app_assoc. rewrite (app_assoc a b ((i, q) :: c)).
              rewrite <- app_assoc. apply Permutation_cons_app. rewrite app_assoc. reflexivity.
           ++ intros x Hx. apply in_app_iff in Hx. destruct Hx as [Hx|[<-|Hx]]; [|exact Z|];
                apply H4, in_app_iff; tauto.
        -- destruct (IH _ _ _ _ _ _ H) as (a & b & c & H1 & H2 & H3 & H4).
           exists a, ((i, q) :: b), c. split; [exact H1|]. split; [rewrite H2, <- app_assoc; reflexivity|].
           split.
           ++ cbn [app]. rewrite H3. apply Permutation_cons_app. reflexivity.
           ++ intros x [<-|Hx]; [exact Z|]. apply H4. exact Hx.
      * destruct (IH _ _ _ _ _ _ H) as (a & b & c & H1 & H2 & H3 & H4).
        exists ((i, q) :: a), b, c. split; [rewrite H1, <- app_assoc; reflexivity|].
        split; [exact H2|]. split; [|exact H4]. cbn [app]. rewrite H3. reflexivity.
    + destruct (IH _ _ _ _ _ _ H) as (a & b & c & H1 & H2 & H3 & H4).
      exists a, b, c. tauto.
Qed.

Lemma ray_list_fst l i : In i (map fst (ray_list l)) -> In i (map fst l).
Proof.
  induction l as [|e l IH]; cbn [ray_list flat_map]; [intros []|]. fold (ray_list l).
  rewrite map_app, in_app_iff. intros [H|H]; [left|right; exact (IH H)].
  destruct (snd e) as [[q|q]|]; cbn in H; tauto.
Qed.
Lemma ray_list_nodup l : NoDup (map fst l) -> NoDup (map fst (ray_list l)).
Proof.
  induction l as [|e l IH]; cbn [ray_list flat_map]; intro H; [constructor|]. fold (ray_list l).
  cbn [map] in H. apply NoDup_cons_iff in H. destruct H as [H1 H2].
  destruct (snd e) as [[q|q]|]; cbn [app map]; try (exact (IH H2));
    (constructor; [|exact (IH H2)]); cbn [fst]; intro C; apply H1, ray_list_fst, C.
Qed.
Lemma ray_list_in l i o : In (i, o) l -> 
  match o with None => True | _ => In (i, entry_val o) (ray_list l) end.
Proof.
  intro H. destruct o as [[q|q]|]; [| |trivial]; unfold ray_list; apply in_flat_map;
    eexists; (split; [exact H|]); cbn; left; reflexivity.
Qed.
Lemma ray_list_notin l i : NoDup (map fst l) -> In (i, None) l -> ~ In i (map fst (ray_list l)).
Proof.
  intros ND H C. apply in_map_iff in C. destruct C as ([i' q] & E & C). cbn in E. subst i'.
  unfold ray_list in C. apply in_flat_map in C. destruct C as ([j o] & Hj & C).
  assert (j = i /\ o <> None) as [-> Ho].
  { destruct o as [[z|z]|]; cbn in C; try tauto; destruct C as [C|[]]; inversion C; subst; split; congruence. }
  assert (E : In (i, o) l -> In (i, None) l -> o = None).
  { clear -ND. induction l as [|e l IH]; [intros []|]. cbn [map] in ND.
    apply NoDup_cons_iff in ND. destruct ND as [N1 N2].
    intros [H1|H1] [H2|H2]; subst.
    - inversion H2. reflexivity.
    - exfalso. apply N1. apply (in_map fst) in H2. exact H2.
    - exfalso. apply N1. apply (in_map fst) in H1. exact H1.
    - exact (IH N2 H1 H2). }
  apply Ho, E; assumption.
Qed.

Lemma pval_scale s v i : pval (scale_packed s v) i == pval v i * s.
Proof.
  unfold scale_packed. induction v as [|e v IH]; [cbn; ring|]. cbn [map]. rewrite !pval_cons, IH.
  cbn [fst snd]. destruct (Nat.eqb (fst e) i); ring.
Qed.

(** The packed ray is, up to a positive factor, the exact ray with entries below RAYEPS dropped. *)
Lemma setCompNBCoorRay_spec EPS RAYEPS DIFFEPS n bo bt NB rc rowOf ray scl var vec ov :
  0 < scl -> 0 <= RAYEPS ->
  setCompNBCoorRay EPS RAYEPS DIFFEPS n bo bt NB rc rowOf ray scl var = Some (vec, ov) ->
  exists s, 0 < s /\ (forall sig, sig <= 1 -> sig <= scl -> sig <= s) /\ forall c, (c < n)%nat ->
    Qabs (pval vec c - s * entry_val (ray_entry bo bt n NB rowOf ray var c)) <= s * RAYEPS.
Proof.
  intros Hs HR. unfold setCompNBCoorRay.
  set (L := map (fun c => (c, ray_entry bo bt n NB rowOf ray var c)) (seq 0 n)).
  destruct (fold_left _ _ _) as [[nt ti] o] eqn:E.
  destruct (with_tiny _ _ _ _ _) as [vec0 o'] eqn:W.
  match goal with |- context [if _ then _ else Some (?v, _)] => set (V := v) end.
  intro H.
  assert (HV : vec = V).
  { destruct (_ && _); [discriminate|]. destruct (_ && _); [discriminate|]. inversion H. reflexivity. }
  assert (NDL : NoDup (map fst L)).
  { unfold L. rewrite map_map. cbn [fst]. rewrite map_id. apply seq_NoDup. }
  assert (F : faithful RAYEPS (ray_list L) vec0).
  { destruct (ray_classify_split _ _ _ _ _ _ _ _ _ E) as (a & b & c & -> & -> & HE & Hsm).
    destruct (with_tiny_spec _ _ _ _ _ _ _ W) as (sel & rest & HVV & Hb). cbn [app] in HVV, Hb.
    eapply faithful_from_parts; try eassumption. apply ray_list_nodup, NDL. }
  destruct F as (F1 & F2 & F3).
  assert (G : forall c, (c < n)%nat ->
     Qabs (pval vec0 c - entry_val (ray_entry bo bt n NB rowOf ray var c)) <= RAYEPS).
  { intros c Hc. assert (Hin : In (c, ray_entry bo bt n NB rowOf ray var c) L).
    { apply in_map_iff. exists c. split; [reflexivity|]. apply in_seq. lia. }
    destruct (ray_entry bo bt n NB rowOf ray var c) as [o1|] eqn:RE.
    - assert (Hin' : In (c, entry_val (Some o1)) (ray_list L)) by exact (ray_list_in L c (Some o1) Hin).
      destruct (F3 _ _ Hin') as [X|[X1 X2]].
      + setoid_replace (pval vec0 c - entry_val (Some o1)) with 0 by (rewrite X; ring). exact HR.
      + setoid_replace (pval vec0 c - entry_val (Some o1)) with (- entry_val (Some o1)) by (rewrite X1; ring).
        rewrite Qabs_opp. lra.
    - cbn [entry_val]. rewrite (pval_notin vec0).
      + exact HR.
      + apply F2, ray_list_notin; assumption. }
  assert (G' : exists s, 0 < s /\ (forall sig, sig <= 1 -> sig <= scl -> sig <= s) /\ forall c, pval V c == pval vec0 c * s).
  { unfold V. destruct (_ || _); [|destruct (isVal scl 1 EPS7)].
    - exists scl. split; [exact Hs|]. split; [intros sig _ A; exact A|]. intro c. apply pval_scale.
    - exists 1. split; [reflexivity|]. split; [intros sig A _; exact A|]. intro c. ring.
    - exists scl. split; [exact Hs|]. split; [intros sig _ A; exact A|]. intro c. apply pval_scale. }
  destruct G' as (s & Hs0 & Hs1 & Hsv). exists s. split; [exact Hs0|]. split; [exact Hs1|]. intros c Hc.
  specialize (G c Hc). rewrite HV, Hsv.
  setoid_replace (pval vec0 c * s - s * entry_val (ray_entry bo bt n NB rowOf ray var c))
    with (s * (pval vec0 c - entry_val (ray_entry bo bt n NB rowOf ray var c))) by ring.
  rewrite Qabs_Qmult, (Qabs_pos s) by lra.
  rewrite (Qmult_comm s RAYEPS), (Qmult_comm s). apply Qmult_le_compat_r; lra.
Qed.
