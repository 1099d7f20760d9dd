(** obstacles/starshaped_primitive_combination.py: C58 (point location), C59 (tangent points), C60 (boundary mapping). *)
From Coq Require Import Reals List Bool Arith ZArith Lra Lia Psatz Sorted.
From Verif Require Import Num M_Cg M_ConePolygon M_Motion M_Obstacle M_Ellipse M_Polygon M_StarPolygon M_StarHull M_Combination
  Spec L_Geom L_Cg L_Obstacle L_Ellipse P_Ellipse L_Polygon P_StarHull.
Import ListNotations.
Local Open Scope R_scope.

Lemma map_res_Forall2 {A B} (f : A -> res B) : forall l r, map_res f l = Ret r <-> Forall2 (fun a b => f a = Ret b) l r.
Proof.
  induction l as [|a l IH]; intros r; cbn [map_res].
  - split; [intros E; injection E as <-; constructor|intros F; inversion F; reflexivity].
  - destruct (f a) as [b|e] eqn:Ea; cbn [bind].
    + destruct (map_res f l) as [bs|e] eqn:El; cbn [bind].
      * split.
        -- intros E; injection E as <-. constructor; [exact Ea|apply IH; reflexivity].
        -- intros F. inversion F as [|? ? ? ? H1 H2]; subst. rewrite Ea in H1. injection H1 as <-. apply IH in H2. injection H2 as <-. reflexivity.
      * split; [discriminate|]. intros F. inversion F as [|? ? ? ? H1 H2]; subst. apply IH in H2. discriminate.
    + split; [discriminate|]. intros F. inversion F; subst. congruence.
Qed.
Lemma Forall2_In_l {A B} (P : A -> B -> Prop) l r : Forall2 P l r -> forall a, In a l -> exists b, In b r /\ P a b.
Proof. induction 1 as [|a b l r H F IH]; intros z; [intros []|]. intros [<-|I]; [exists b; split; [left; reflexivity|exact H]|]. destruct (IH _ I) as (y & J & Q). exists y. split; [right; exact J|exact Q]. Qed.
Lemma Forall2_In_r {A B} (P : A -> B -> Prop) l r : Forall2 P l r -> forall b, In b r -> exists a, In a l /\ P a b.
Proof. induction 1 as [|a b l r H F IH]; intros z; [intros []|]. intros [<-|I]; [exists a; split; [left; reflexivity|exact H]|]. destruct (IH _ I) as (y & J & Q). exists y. split; [right; exact J|exact Q]. Qed.

(** *** C58 *)
(* [loc] tells apart the inside A and the border B of a shape *)
Definition locates (loc : Pt -> res R) (A B : region) : Prop :=
  forall x, exists l, loc x = Ret l /\ (l < 0 <-> A x) /\ (l = 0 <-> B x) /\ (0 < l <-> ~ A x /\ ~ B x).
Definition hull_locates (h : option hull_geom) (A B : region) : Prop :=
  match h with
  | None => forall x, ~ A x /\ ~ B x
  | Some g => forall x, (hg_contains g x = true <-> A x) /\ (hg_disjoint g x = true <-> ~ A x /\ ~ B x) /\ ~ (A x /\ B x)
  end.

Lemma hull_location_ok h A B x : hull_locates h A B ->
  let l := hull_location h x in (l < 0 <-> A x) /\ (l = 0 <-> B x /\ ~ A x) /\ (0 < l <-> ~ A x /\ ~ B x).
Proof.
  unfold hull_locates, hull_location. destruct h as [g|]; intros H; specialize (H x); cbv zeta.
  - destruct H as (H1 & H2 & H3). destruct (hg_contains g x) eqn:E1.
    + assert (A x) by tauto. repeat split; intros; try lra; tauto.
    + destruct (hg_disjoint g x) eqn:E2.
      * assert (~ A x /\ ~ B x) by tauto. repeat split; intros; try lra; tauto.
      * assert (NA : ~ A x) by (intros Q; apply H1 in Q; congruence). 
        assert (NB : ~ (~ A x /\ ~ B x)) by (intros Q; apply H2 in Q; congruence).
        assert (NNB : ~ ~ B x) by tauto. apply Classical_Prop.NNPP in NNB. repeat split; intros; try lra; tauto.
  - repeat split; intros; try lra; tauto.
Qed.

Theorem C58_point_location : forall (c : comb) (As Bs : list region) (A0 B0 : region) (x : Pt),
  length As = length Bs -> Forall2 (fun o AB => locates (mb_location o) (fst AB) (snd AB)) (cb_members c) (combine As Bs) ->
  hull_locates (cb_hull c) A0 B0 ->
  exists l, cb_point_location c x = Ret l /\
    (l = -1 <-> exists A, In A (A0 :: As) /\ A x) /\
    (l = 0 <-> (forall A, In A (A0 :: As) -> ~ A x) /\ exists B, In B (B0 :: Bs) /\ B x) /\
    (l = 1 <-> forall S, In S (A0 :: B0 :: As ++ Bs) -> ~ S x).
Proof.
  intros c As Bs A0 B0 x HL F H0. pose proof (hull_location_ok _ _ _ x H0) as K. cbv zeta in K. set (lh := hull_location (cb_hull c) x) in *.
  assert (E : exists ls, map_res (fun o => mb_location o x) (cb_members c) = Ret ls /\
    Forall2 (fun l AB => (l < 0 <-> fst AB x) /\ (l = 0 <-> snd AB x) /\ (0 < l <-> ~ fst AB x /\ ~ snd AB x)) ls (combine As Bs)).
  { clear HL K. induction F as [|o AB l r H F IH]; [exists []; split; [reflexivity|constructor]|].
    destruct IH as (ls & E1 & E2). destruct (H x) as (z & Ez & Q). exists (z :: ls). cbn [map_res]. rewrite Ez. cbn [bind]. rewrite E1. cbn [bind].
    split; [reflexivity|constructor; assumption]. }
  destruct E as (ls & E & Q). unfold cb_point_location. rewrite E. cbn [bind]. cbv zeta. fold lh.
  assert (X1 : existsb (fun l => Rltb l 0) (ls ++ [lh]) = true <-> exists A, In A (A0 :: As) /\ A x).
  { rewrite existsb_exists. split.
    - intros (l & I & L). apply Rltb_true in L. apply in_app_or in I as [I|[<-|[]]].
      + destruct (Forall2_In_l _ _ _ Q _ I) as ([A B] & J & J1 & _). apply in_combine_l in J. exists A. split; [right; exact J|apply J1, L].
      + exists A0. split; [left; reflexivity|apply K, L].
    - intros (A & [<-|I] & Ax).
      + exists lh. split; [apply in_or_app; right; left; reflexivity|]. apply Rltb_true. apply K, Ax.
      + assert (J : exists B, In (A, B) (combine As Bs)).
        { clear - HL I. revert Bs HL. induction As as [|a As IH]; intros [|b Bs] HL; try destruct I; cbn in HL; try discriminate.
          - subst. exists b. left. reflexivity.
          - destruct (IH H Bs ltac:(lia)) as (B & J). exists B. right. exact J. }
        destruct J as (B & J). destruct (Forall2_In_r _ _ _ Q _ J) as (l & I' & J1 & _). exists l. split; [apply in_or_app; left; exact I'|].
        apply Rltb_true. apply J1. exact Ax. }
  assert (X2 : existsb (fun l => Reqb l 0) (ls ++ [lh]) = true <-> (B0 x /\ ~ A0 x) \/ exists B, In B Bs /\ B x).
  { rewrite existsb_exists. split.
    - intros (l & I & L). apply Reqb_true in L. apply in_app_or in I as [I|[<-|[]]].
      + destruct (Forall2_In_l _ _ _ Q _ I) as ([A B] & J & _ & J1 & _). apply in_combine_r in J. right. exists B. split; [exact J|apply J1, L].
      + left. apply K, L.
    - intros [B0x|(B & I & Bx)].
      + exists lh. split; [apply in_or_app; right; left; reflexivity|]. apply Reqb_true. apply K, B0x.
      + assert (J : exists A, In (A, B) (combine As Bs)).
        { clear - HL I. revert As HL. induction Bs as [|b Bs IH]; intros [|a As] HL; try destruct I; cbn in HL; try discriminate.
          - subst. exists a. left. reflexivity.
          - destruct (IH H As ltac:(lia)) as (A & J). exists A. right. exact J. }
        destruct J as (A & J). destruct (Forall2_In_r _ _ _ Q _ J) as (l & I' & _ & J1 & _). exists l. split; [apply in_or_app; left; exact I'|].
        apply Reqb_true. apply J1. exact Bx. }
  destruct (existsb (fun l => Rltb l 0) (ls ++ [lh])) eqn:E1.
  - destruct (proj1 X1 eq_refl) as (A & I & Ax). exists (-1). split; [reflexivity|]. split; [tauto|]. split; [split; [lra|]|split; [lra|]].
    + intros [N _]. exfalso. exact (N A I Ax).
    + intros N. exfalso. apply (N A); [|exact Ax]. destruct I as [<-|I]; [left; reflexivity|right; right; apply in_or_app; left; exact I].
  - assert (N1 : forall A, In A (A0 :: As) -> ~ A x).
    { intros A I Ax. assert (false = true) by (apply X1; eauto). discriminate. }
    destruct (existsb (fun l => Reqb l 0) (ls ++ [lh])) eqn:E2.
    + exists 0. split; [reflexivity|]. assert (W : exists B, In B (B0 :: Bs) /\ B x).
      { destruct (proj1 X2 eq_refl) as [[B0x _]|(B & I & Bx)]; [exists B0; split; [left; reflexivity|exact B0x]|exists B; split; [right; exact I|exact Bx]]. }
      split; [split; [lra|]|split; [tauto|split; [lra|]]].
      * intros (A & I & Ax). exfalso. exact (N1 A I Ax).
      * intros N. exfalso. destruct W as (B & [<-|I] & Bx); [apply (N B0); [right; left; reflexivity|exact Bx]|apply (N B); [right; right; apply in_or_app; right; exact I|exact Bx]].
    + exists 1. split; [reflexivity|].
      assert (N2 : forall B, In B (B0 :: Bs) -> ~ B x).
      { intros B I Bx. assert (false = true); [|discriminate]. apply X2. destruct I as [<-|I]; [left; split; [exact Bx|apply N1; left; reflexivity]|right; eauto]. }
      split; [split; [lra|]|split; [split; [lra|]|]].
      * intros (A & I & Ax). exfalso. exact (N1 A I Ax).
      * intros [_ (B & I & Bx)]. exfalso. exact (N2 B I Bx).
      * split; [|intros; reflexivity]. intros _ S [<-|[<-|I]]; [apply N1; left; reflexivity|apply N2; left; reflexivity|].
        apply in_app_or in I as [I|I]; [apply N1; right; exact I|apply N2; right; exact I].
Qed.
Print Assumptions C58_point_location.
Lemma shown_surj m (x : Pt) : exists z, x = shown m GLOBAL z.
Proof. destruct m as [m|]; [|exists x; reflexivity]. exists (rotv (- m_rot m) (vsub x (m_pos m))). cbn [shown]. symmetry. apply place_inv'. Qed.
(* every ellipse is such a member *)
Lemma ellipse_locates E : locates (mb_location (ellipse_member E))
  (fun x => exists z, x = shown (e_mm E) GLOBAL z /\ ell_form (e_a E) z < 1) (fun x => exists z, x = shown (e_mm E) GLOBAL z /\ on_ellipse (e_a E) z).
Proof.
  intros x. destruct (shown_surj (e_mm E) x) as (z & Ez). assert (G : good GLOBAL) by (left; reflexivity).
  destruct (C40_point_location E GLOBAL z G) as (l & E1 & L1 & L2 & L3). rewrite <- Ez in E1. exists l. cbn [mb_location ellipse_member]. split; [exact E1|].
  assert (U : forall z', x = shown (e_mm E) GLOBAL z' -> z' = z).
  { intros z' Q. apply (shown_inj (e_mm E) GLOBAL _ _ G). congruence. }
  rewrite L1, L2, L3. split; [|split].
  - split; [eauto|]. intros (z' & Q & H). apply U in Q. subst z'. exact H.
  - split; [eauto|]. intros (z' & Q & H). apply U in Q. subst z'. exact H.
  - split.
    + intros H. split; intros (z' & Q & H'); apply U in Q; subst z'; unfold on_ellipse in *; lra.
    + intros [H1 H2]. destruct (Rtotal_order (ell_form (e_a E) z) 1) as [L|[L|L]]; [exfalso; eauto| |exact L].
      exfalso. apply H2. exists z. split; [exact Ez|exact L].
Qed.

(* two overlapping discs: the centre of one, a common border point and a far point *)
Example C58_example : let c := cb_new [ellipse_member (Ell (1, 1) 20 None (0, 0)); ellipse_member (Ell (2, 1) 20 None (0, 0))] None (0, 0) in
  cb_point_location c (3 / 2, 0) = Ret (-1) /\ cb_point_location c (2, 0) = Ret 0 /\ cb_point_location c (3, 0) = Ret 1.
Proof.
  cbv zeta. unfold cb_point_location, cb_new. cbn [cb_members cb_hull map_res ellipse_member mb_location e_point_location e_mm transform bind e_a hull_location app existsb].
  unfold ell_loc. cbn [fst snd].
  repeat split.
  - destruct (Rltb_spec ((3 / 2 / 1) ^ 2 + (0 / 1) ^ 2 - 1) 0) as [H|_]; [lra|]. destruct (Rltb_spec ((3 / 2 / 2) ^ 2 + (0 / 1) ^ 2 - 1) 0) as [_|H]; [reflexivity|lra].
  - destruct (Rltb_spec ((2 / 1) ^ 2 + (0 / 1) ^ 2 - 1) 0) as [H|_]; [lra|]. destruct (Rltb_spec ((2 / 2) ^ 2 + (0 / 1) ^ 2 - 1) 0) as [H|_]; [lra|].
    destruct (Rltb_spec 1 0) as [H|_]; [lra|]. cbn [orb].
    destruct (Reqb_spec ((2 / 1) ^ 2 + (0 / 1) ^ 2 - 1) 0) as [H|_]; [lra|]. destruct (Reqb_spec ((2 / 2) ^ 2 + (0 / 1) ^ 2 - 1) 0) as [_|H]; [reflexivity|lra].
  - destruct (Rltb_spec ((3 / 1) ^ 2 + (0 / 1) ^ 2 - 1) 0) as [H|_]; [lra|]. destruct (Rltb_spec ((3 / 2) ^ 2 + (0 / 1) ^ 2 - 1) 0) as [H|_]; [lra|].
    destruct (Rltb_spec 1 0) as [H|_]; [lra|]. cbn [orb].
    destruct (Reqb_spec ((3 / 1) ^ 2 + (0 / 1) ^ 2 - 1) 0) as [H|_]; [lra|]. destruct (Reqb_spec ((3 / 2) ^ 2 + (0 / 1) ^ 2 - 1) 0) as [H|_]; [lra|].
    destruct (Reqb_spec 1 0) as [H|_]; [lra|]. reflexivity.
Qed.

(** The answer is about the members one by one, not about their union: two boxes side by side, a point in the middle of the
    common side is reported as exterior although a disc around it lies in the union. *)
Definition box_region (a b d e : R) : region := fun p => a <= fst p <= b /\ d <= snd p <= e.
Definition box_member (a b d e : R) : member :=
  polygon_member (fun p => Rltb a (fst p) && Rltb (fst p) b && (Rltb d (snd p) && Rltb (snd p) e))
    (fun p => Rleb a (fst p) && Rleb (fst p) b && (Rleb d (snd p) && Rleb (snd p) e) &&
              negb (Rltb a (fst p) && Rltb (fst p) b && (Rltb d (snd p) && Rltb (snd p) e)))
    (fun _ _ => GEmpty) None [(a, d); (b, d); (b, e); (a, e)].
Theorem C58_union_refuted : exists (l : list member) (Ss : list region) (x : Pt) (r : R), 0 < r /\
  l = [box_member 0 1 0 1; box_member 1 2 0 1] /\ Ss = [box_region 0 1 0 1; box_region 1 2 0 1] /\
  cb_point_location (cb_new l None (1 / 2, 1 / 2)) x = Ret 1 /\
  forall p, dist x p < r -> exists A, In A Ss /\ A p.
Proof.
  exists [box_member 0 1 0 1; box_member 1 2 0 1], [box_region 0 1 0 1; box_region 1 2 0 1], (1, 1 / 2), (1 / 2).
  split; [lra|]. split; [reflexivity|]. split; [reflexivity|]. split.
  - unfold cb_point_location, cb_new, box_member, polygon_member, p_point_location.
    cbn [cb_members cb_hull map_res mb_location transform bind map fst snd lmin lmax fold_left hull_location].
    assert (M1 : Rmax (Rmax (Rmax 0 1) 1) 0 = 1) by (rewrite (Rmax_right 0 1), (Rmax_right 1 1), Rmax_left by lra; reflexivity).
    assert (M2 : Rmin (Rmin (Rmin 1 2) 2) 1 = 1) by (rewrite (Rmin_left 1 2), (Rmin_left 1 2), Rmin_left by lra; reflexivity).
    rewrite M1, M2. destruct (Rltb_spec 1 1) as [H|_]; [lra|]. rewrite andb_false_r. cbn [negb andb bind app existsb].
    destruct (Rltb_spec 1 0) as [H|_]; [lra|]. cbn [orb]. destruct (Reqb_spec 1 0) as [H|_]; [lra|]. reflexivity.
  - intros [a b] D. unfold dist, norm in D.
    assert (Q : norm2 (vsub (1, 1 / 2) (a, b)) < (1 / 2) * (1 / 2)).
    { apply Rnot_le_lt. intros H. apply sqrt_le_1_alt in H. rewrite sqrt_square in H by lra. lra. }
    clear D. unfold norm2, dot, vsub in Q. cbn [fst snd] in Q.
    pose proof (Rle_0_sqr (1 - a)) as QA. pose proof (Rle_0_sqr (1 / 2 - b)) as QB. unfold Rsqr in QA, QB.
    assert (A : Rsqr (1 - a) < Rsqr (1 / 2)) by (unfold Rsqr; lra). assert (B : Rsqr (1 / 2 - b) < Rsqr (1 / 2)) by (unfold Rsqr; lra).
    apply Rsqr_lt_abs_0 in A. apply Rsqr_lt_abs_0 in B. rewrite (Rabs_right (1 / 2)) in A, B by lra. apply Rabs_def2 in A. apply Rabs_def2 in B.
    destruct (Rle_dec a 1); [exists (box_region 0 1 0 1)|exists (box_region 1 2 0 1)]; (split; [cbn; auto|unfold box_region; cbn [fst snd]; lra]).
Qed.
Print Assumptions C58_union_refuted.

(** *** C59 *)
(* candidate number i has all other candidates strictly to its left / strictly to its right, seen from x *)
Definition all_left (x : Pt) (cs : list Pt) (i : nat) : Prop :=
  exists t, nth_error cs i = Some t /\ forall j u, j <> i -> nth_error cs j = Some u -> TH < area2 x t u.
Definition all_right (x : Pt) (cs : list Pt) (i : nat) : Prop :=
  exists t, nth_error cs i = Some t /\ forall j u, j <> i -> nth_error cs j = Some u -> area2 x t u < - TH.

Lemma all_others_ok cmp x cs i : (i < length cs)%nat -> (i <= 256)%nat ->
  (all_others cmp x cs i = true <->
   exists t, nth_error cs i = Some t /\ forall j u, j <> i -> nth_error cs j = Some u -> cmp x t u = true).
Proof.
  intros Hi H6. unfold all_others. rewrite forallb_forall. split.
  - intros H. exists (nth i cs (0, 0)). split; [apply nth_error_nth'; exact Hi|]. intros j u Nj Ej.
    assert (J : (j < length cs)%nat) by (apply nth_error_Some; congruence).
    specialize (H j). rewrite in_seq in H. specialize (H ltac:(lia)). unfold same_int in H.
    destruct (Nat.eqb_spec i j) as [->|N]; [congruence|]. cbn [andb orb] in H. rewrite (nth_error_nth _ _ (0, 0) Ej) in H. exact H.
  - intros (t & Et & H) j Ij. apply in_seq in Ij. unfold same_int. destruct (Nat.eqb_spec i j) as [->|N].
    + destruct (Nat.leb_spec j 256); [reflexivity|lia].
    + cbn [andb orb]. rewrite (nth_error_nth _ _ (0, 0) Et). apply (H j); [congruence|]. apply nth_error_nth'. lia.
Qed.
Lemma extreme_ok x cs i : (i < length cs)%nat -> (i <= 256)%nat -> (extreme_candidate x cs i = true <-> all_left x cs i \/ all_right x cs i).
Proof.
  intros Hi H6. unfold extreme_candidate. rewrite orb_true_iff, !all_others_ok by assumption.
  unfold all_left, all_right. split.
  - intros [(t & E & H)|(t & E & H)]; [left|right]; exists t; (split; [exact E|]); intros j u N Ej;
      [apply is_ccw_iff|apply is_cw_iff]; eauto.
  - intros [(t & E & H)|(t & E & H)]; [left|right]; exists t; (split; [exact E|]); intros j u N Ej;
      [apply is_ccw_iff|apply is_cw_iff]; eauto.
Qed.
(* a candidate with a large index is compared with itself *)
Lemma late_candidate x cs i : (256 < i)%nat -> (i < length cs)%nat -> extreme_candidate x cs i = false.
Proof.
  intros H6 Hi. apply not_true_iff_false. unfold extreme_candidate. rewrite orb_true_iff. unfold all_others. rewrite !forallb_forall.
  assert (S : same_int i i = false). { unfold same_int. destruct (Nat.leb_spec i 256); [lia|]. apply andb_false_r. }
  assert (Z : forall t : Pt, area2 x t t = 0) by (intros t; unv; ring). pose proof TH_pos.
  intros [Q|Q]; specialize (Q i); rewrite in_seq in Q; specialize (Q ltac:(lia)); rewrite S in Q; cbn [orb] in Q.
  - apply (proj1 (is_ccw_iff _ _ _)) in Q. rewrite Z in Q. lra.
  - apply (proj1 (is_cw_iff _ _ _)) in Q. rewrite Z in Q. lra.
Qed.

Lemma filter_ascending (f : nat -> bool) n : forall k, StronglySorted lt (filter f (seq k n)).
Proof.
  induction n as [|n IH]; intros k; cbn [seq filter]; [constructor|]. destruct (f k); [|apply IH]. constructor; [apply IH|].
  apply Forall_forall. intros i I. apply filter_In in I as [I _]. apply in_seq in I. lia.
Qed.

(** The points returned are, in the order of the candidates, exactly the candidates that have all others strictly on one
    side (up to 257 candidates). *)
Theorem C59_candidates_partial : forall (c : comb) (x : Pt) (ls : list (list Pt)),
  Forall2 (fun o l => mb_tangent_points o x = Ret l) (cb_members c) ls -> (length (concat ls) <= 257)%nat ->
  exists idx, cb_tangent_points c x = Ret (map (fun i => nth i (concat ls) (0, 0)) idx) /\ StronglySorted lt idx /\
    forall i, In i idx <-> all_left x (concat ls) i \/ all_right x (concat ls) i.
Proof.
  intros c x ls F L. apply map_res_Forall2 in F. unfold cb_tangent_points. rewrite F. cbn [bind].
  set (cs := concat ls) in *. exists (filter (extreme_candidate x cs) (seq 0 (length cs))). split; [reflexivity|].
  split; [apply filter_ascending|]. intros i. rewrite filter_In, in_seq. split.
  - intros [H E]. apply extreme_ok in E; [exact E|lia|lia].
  - intros E. assert (Hi : (i < length cs)%nat) by (destruct E as [(t & E & _)|(t & E & _)]; apply nth_error_Some; congruence).
    split; [lia|]. apply extreme_ok; [exact Hi|lia|exact E].
Qed.
Print Assumptions C59_candidates_partial.

(* at most one candidate of each kind *)
Lemma all_left_unique x cs i j : all_left x cs i -> all_left x cs j -> i = j.
Proof.
  intros (t & Et & H) (u & Eu & K). destruct (Nat.eq_dec i j) as [E|N]; [exact E|exfalso].
  pose proof (H j u ltac:(congruence) Eu) as A. pose proof (K i t N Et) as B. pose proof TH_pos.
  assert (area2 x u t = - area2 x t u) by (unv; ring). lra.
Qed.
Lemma all_right_unique x cs i j : all_right x cs i -> all_right x cs j -> i = j.
Proof.
  intros (t & Et & H) (u & Eu & K). destruct (Nat.eq_dec i j) as [E|N]; [exact E|exfalso].
  pose proof (H j u ltac:(congruence) Eu) as A. pose proof (K i t N Et) as B. pose proof TH_pos.
  assert (area2 x u t = - area2 x t u) by (unv; ring). lra.
Qed.

Definition union (Ss : list region) : region := fun p => exists A, In A Ss /\ A p.

Lemma between_bound (x t1 t2 o a : Pt) : area2 x t1 t2 < 0 -> area2 x t1 o <= 0 <= area2 x t2 o ->
  (area2 x a t1 <= 0 -> area2 x a t2 <= 0 -> area2 x a o <= 0) /\ (0 <= area2 x a t1 -> 0 <= area2 x a t2 -> 0 <= area2 x a o).
Proof.
  intros D [H1 H2].
  assert (E : - area2 x t1 t2 * area2 x a o = area2 x t2 o * area2 x a t1 - area2 x t1 o * area2 x a t2).
  { destruct x, t1, t2, o, a. unv. ring. }
  set (p := area2 x t1 t2) in *. set (q := area2 x a o) in *. set (r := area2 x t1 o) in *. set (s := area2 x t2 o) in *.
  set (u := area2 x a t1) in *. set (v := area2 x a t2) in *. clearbody p q r s u v.
  split; intros U V; apply Rnot_lt_le; intros L; nra.
Qed.

(** If every member has a tangent pair and two points come back, they are a tangent pair of the union of the members, in one
    order or the other; more than two never come back. *)
Theorem C59_union_partial : forall (c : comb) (x : Pt) (Ss : list region) (tps : list (Pt * Pt)) (l : list Pt),
  Forall2 (fun o t => mb_tangent_points o x = Ret [fst t; snd t]) (cb_members c) tps ->
  Forall2 (fun A t => tangent_pair A x (fst t) (snd t)) Ss tps -> (length tps <= 128)%nat ->
  cb_tangent_points c x = Ret l ->
  (length l <= 2)%nat /\
  forall p q, l = [p; q] -> tangent_pair (union Ss) x p q \/ tangent_pair (union Ss) x q p.
Proof.
  intros c x Ss tps l F FS L E.
  set (ls := map (fun t : Pt * Pt => [fst t; snd t]) tps).
  assert (F' : Forall2 (fun o l => mb_tangent_points o x = Ret l) (cb_members c) ls).
  { unfold ls. clear - F. induction F; cbn [map]; constructor; assumption. }
  assert (LC : length (concat ls) = (2 * length tps)%nat).
  { unfold ls. clear. induction tps as [|t r IH]; cbn [map concat app length]; [reflexivity|]. rewrite IH. lia. }
  destruct (C59_candidates_partial c x ls F' ltac:(lia)) as (idx & E2 & SO & I). rewrite E in E2. injection E2 as ->.
  set (cs := concat ls) in *.
  assert (CI : forall t, In t tps -> In (fst t) cs /\ In (snd t) cs).
  { intros t It. unfold cs, ls. rewrite !in_concat. split; exists [fst t; snd t]; (split; [apply (in_map (fun t => [fst t; snd t])), It|cbn; auto]). }
  assert (CS : forall u, In u cs -> union Ss u).
  { intros u Iu. unfold cs, ls in Iu. apply in_concat in Iu as (l & Il & Iu). apply in_map_iff in Il as (t & <- & It).
    destruct (Forall2_In_r _ _ _ FS _ It) as (A & IA & (T1 & T2 & _)). destruct Iu as [<-|[<-|[]]]; exists A; auto. }
  assert (ORD : forall i j, all_right x cs i -> all_left x cs j -> i <> j ->
    tangent_pair (union Ss) x (nth i cs (0, 0)) (nth j cs (0, 0))).
  { intros i j (t & Et & R) (u & Eu & Lf) N. rewrite (nth_error_nth _ _ (0, 0) Et), (nth_error_nth _ _ (0, 0) Eu).
    split; [apply CS, (nth_error_In _ _ Et)|]. split; [apply CS, (nth_error_In _ _ Eu)|].
    pose proof TH_pos as TP. split; [specialize (R j u ltac:(congruence) Eu); lra|].
    assert (Z : forall w : Pt, area2 x w w = 0) by (intros w; unv; ring).
    assert (CR : forall w, In w cs -> area2 x t w <= 0).
    { intros w Iw. apply In_nth_error in Iw as (k & Ek). destruct (Nat.eq_dec k i) as [->|Nk].
      - rewrite Et in Ek. injection Ek as <-. rewrite Z. lra.
      - specialize (R k w Nk Ek). lra. }
    assert (CL : forall w, In w cs -> 0 <= area2 x u w).
    { intros w Iw. apply In_nth_error in Iw as (k & Ek). destruct (Nat.eq_dec k j) as [->|Nk].
      - rewrite Eu in Ek. injection Ek as <-. rewrite Z. lra.
      - specialize (Lf k w Nk Ek). lra. }
    intros o (A & IA & Ao). destruct (Forall2_In_l _ _ _ FS _ IA) as (w & Iw & (_ & _ & D & B)). specialize (B o Ao).
    destruct (CI w Iw) as [C1 C2]. split; [apply (between_bound x (fst w) (snd w) o t D B)|apply (between_bound x (fst w) (snd w) o u D B)]; auto. }
  rewrite map_length.
  assert (AT2 : (length idx <= 2)%nat).
  { destruct idx as [|i [|j [|k r]]]; cbn [length]; try lia. exfalso.
    inversion SO as [|? ? SO1 S1]; subst. inversion SO1 as [|? ? SO2 S2]; subst. 
    inversion S1 as [|? ? S1a S1b]; subst. inversion S1b as [|? ? S1c S1d]; subst. inversion S2 as [|? ? S2a S2b]; subst.
    assert (Ii : In i (i :: j :: k :: r)) by (cbn; auto). assert (Ij : In j (i :: j :: k :: r)) by (cbn; auto). assert (Ik : In k (i :: j :: k :: r)) by (cbn; auto).
    apply I in Ii, Ij, Ik. 
    destruct Ii as [Ii|Ii], Ij as [Ij|Ij], Ik as [Ik|Ik];
      first [pose proof (all_left_unique _ _ _ _ Ii Ij); lia|pose proof (all_left_unique _ _ _ _ Ii Ik); lia|pose proof (all_left_unique _ _ _ _ Ij Ik); lia
            |pose proof (all_right_unique _ _ _ _ Ii Ij); lia|pose proof (all_right_unique _ _ _ _ Ii Ik); lia|pose proof (all_right_unique _ _ _ _ Ij Ik); lia]. }
  split; [exact AT2|]. intros p q El. destruct idx as [|i [|j [|k r]]]; try discriminate. cbn [map] in El. injection El as <- <-.
  inversion SO as [|? ? SO1 S1]; subst. inversion S1 as [|? ? S1a S1b]; subst.
  assert (Ii : In i [i; j]) by (cbn; auto). assert (Ij : In j [i; j]) by (cbn; auto). apply I in Ii, Ij.
  destruct Ii as [Ii|Ii], Ij as [Ij|Ij].
  - pose proof (all_left_unique _ _ _ _ Ii Ij). lia.
  - right. apply ORD; auto. lia.
  - left. apply ORD; auto. lia.
  - pose proof (all_right_unique _ _ _ _ Ii Ij). lia.
Qed.
Print Assumptions C59_union_partial.

(** One member: its own pair, in its own order. *)
Theorem C59_one_member : forall (o : member) hull xr (x t1 t2 : Pt),
  mb_tangent_points o x = Ret [t1; t2] -> area2 x t1 t2 < - TH -> cb_tangent_points (cb_new [o] hull xr) x = Ret [t1; t2].
Proof.
  intros o hull xr x t1 t2 E A. unfold cb_tangent_points. cbn [cb_new cb_members map_res]. rewrite E. cbn [bind concat app].
  unfold extreme_candidates. cbn [length seq filter]. unfold extreme_candidate, all_others. cbn [length seq forallb]. unfold same_int. cbn [Nat.eqb Nat.leb andb orb nth].
  rewrite (proj2 (is_cw_iff x t1 t2)) by exact A. rewrite (proj2 (is_ccw_iff x t2 t1)) by (replace (area2 x t2 t1) with (- area2 x t1 t2) by (unv; ring); lra).
  cbn [andb]. rewrite orb_true_r. reflexivity.
Qed.
Print Assumptions C59_one_member.

(** *** C59: what goes wrong with several members *)
(* a member known by its tangent points seen from the origin *)
Definition seen (t1 t2 : Pt) : member :=
  Member (fun _ => Exn ValueErr) (fun _ _ => Exn ValueErr) (fun _ => Ret [t1; t2]) (fun _ => Exn ValueErr) (fun _ => Exn ValueErr).
Ltac turns := repeat match goal with
  | |- context [is_ccw ?a ?b ?c] => first
      [rewrite (proj2 (is_ccw_iff a b c)) by (unfold TH; unv; lra)
      |replace (is_ccw a b c) with false by (symmetry; apply not_true_iff_false; rewrite is_ccw_iff; unfold TH; unv; lra)]
  | |- context [is_cw ?a ?b ?c] => first
      [rewrite (proj2 (is_cw_iff a b c)) by (unfold TH; unv; lra)
      |replace (is_cw a b c) with false by (symmetry; apply not_true_iff_false; rewrite is_cw_iff; unfold TH; unv; lra)]
  end.
Lemma box_tangents (a b d e : R) (x t1 t2 : Pt) : box_region a b d e t1 -> box_region a b d e t2 -> area2 x t1 t2 < 0 ->
  (forall p, In p [(a, d); (b, d); (b, e); (a, e)] -> area2 x t1 p <= 0 <= area2 x t2 p) -> a <= b -> d <= e -> tangent_pair (box_region a b d e) x t1 t2.
Proof.
  intros H1 H2 H3 H ab de. split; [exact H1|]. split; [exact H2|]. split; [exact H3|]. intros o Ho.
  assert (P1 := H (a, d) ltac:(cbn; auto)). assert (P2 := H (b, d) ltac:(cbn; auto)). assert (P3 := H (b, e) ltac:(cbn; auto)). assert (P4 := H (a, e) ltac:(cbn; auto)).
  clear H H3 H1 H2. destruct o as [u v], x as [x1 x2], t1 as [p1 q1], t2 as [p2 q2]. unfold box_region in Ho. unv. destruct Ho as [[U1 U2] [V1 V2]].
  set (A := p1 - x1) in *. set (B := q1 - x2) in *. set (C := p2 - x1) in *. set (D := q2 - x2) in *. clearbody A B C D.
  assert (M : forall k w lo hi, lo <= w <= hi -> (0 <= k -> k * lo <= k * w <= k * hi) /\ (k <= 0 -> k * hi <= k * w <= k * lo)).
  { clear. intros k w lo hi H. split; intros K; split; nra. }
  pose proof (M A v d e (conj V1 V2)) as MA. pose proof (M B u a b (conj U1 U2)) as MB.
  pose proof (M C v d e (conj V1 V2)) as MC. pose proof (M D u a b (conj U1 U2)) as MD.
  split.
  - destruct (Rle_dec 0 A) as [HA|HA], (Rle_dec 0 B) as [HB|HB]; try apply Rnot_le_lt, Rlt_le in HA; try apply Rnot_le_lt, Rlt_le in HB;
      destruct MA as [MA1 MA2], MB as [MB1 MB2]; first [specialize (MA1 HA)|specialize (MA2 HA)]; first [specialize (MB1 HB)|specialize (MB2 HB)]; lra.
  - destruct (Rle_dec 0 C) as [HA|HA], (Rle_dec 0 D) as [HB|HB]; try apply Rnot_le_lt, Rlt_le in HA; try apply Rnot_le_lt, Rlt_le in HB;
      destruct MC as [MA1 MA2], MD as [MB1 MB2]; first [specialize (MA1 HA)|specialize (MA2 HA)]; first [specialize (MB1 HB)|specialize (MB2 HB)]; lra.
Qed.

(* two boxes, the right one first: the right tangent is returned first, and the cone built from the pair accepts a kernel
   point from which x lies on the way to the obstacle *)
Theorem C59_order_refuted : exists (c : comb) (x : Pt) (Ss : list region) (tps : list (Pt * Pt)) (p q : Pt) (K : cone R) (k o : Pt),
  Forall2 (fun o t => mb_tangent_points o x = Ret [fst t; snd t]) (cb_members c) tps /\
  Forall2 (fun A t => tangent_pair A x (fst t) (snd t)) Ss tps /\
  cb_tangent_points c x = Ret [p; q] /\ 1 < area2 x p q /\ tangent_pair (union Ss) x q p /\
  admissible_kernel (cb_tangent_points c) x = Ret (Some K) /\ point_in_cone K k = true /\ union Ss o /\ on_seg k o x.
Proof.
  set (c := cb_new [seen (2, -1) (1, -2); seen (1, 2) (2, 1)] None (3, 0)).
  set (Ss := [box_region 1 2 (-2) (-1); box_region 1 2 1 2]). set (tps := [((2, -1), (1, -2)); ((1, 2), (2, 1))] : list (Pt * Pt)).
  assert (F : Forall2 (fun o t => mb_tangent_points o (0, 0) = Ret [fst t; snd t]) (cb_members c) tps) by (repeat constructor).
  assert (FS : Forall2 (fun A t => tangent_pair A (0, 0) (fst t) (snd t)) Ss tps).
  { constructor; [|constructor; [|constructor]]; cbn [fst snd]; (apply box_tangents;
      [unfold box_region; cbn [fst snd]; lra|unfold box_region; cbn [fst snd]; lra|unv; lra| |lra|lra]);
      intros p [<-|[<-|[<-|[<-|[]]]]]; unv; lra. }
  assert (E : cb_tangent_points c (0, 0) = Ret [(1, -2); (1, 2)]).
  { unfold cb_tangent_points, c. cbn [cb_new cb_members map_res seen mb_tangent_points bind concat app].
    unfold extreme_candidates. cbn [length seq filter]. unfold extreme_candidate, all_others. cbn [length seq forallb]. unfold same_int. cbn [Nat.eqb Nat.leb andb orb nth].
    turns. reflexivity. }
  assert (A : area2 (0, 0) (1, -2) (1, 2) = 4) by (unv; ring).
  exists c, (0, 0), Ss, tps, (1, -2), (1, 2), (Cone (0, 0) (psub (0, 0) (1, -2)) (psub (0, 0) (1, 2))), (-1, -1), (1, 1).
  split; [exact F|]. split; [exact FS|]. split; [exact E|]. split; [lra|]. split.
  { destruct (C59_union_partial c (0, 0) Ss tps _ F FS ltac:(cbn; lia) E) as [_ T]. destruct (T _ _ eq_refl) as [T'|T']; [|exact T'].
    exfalso. destruct T' as (_ & _ & T' & _). lra. }
  split; [unfold admissible_kernel; rewrite E; reflexivity|]. split.
  - unfold point_in_cone. cbn [is_convex apex dir1 dir2 Cone].
    replace (is_ccw (n0, n0) (psub (0, 0) (1, -2)) (psub (0, 0) (1, 2))) with true.
    2: { symmetry. apply is_ccw_iff. unfold n0, psub, TH. nR. rewrite ?Num.Q2R_0. unv. lra. }
    unfold padd, psub. nR. cbn [fst snd]. turns. reflexivity.
  - split; [exists (box_region 1 2 1 2); split; [cbn; auto|unfold box_region; cbn [fst snd]; lra]|].
    exists (1 / 2). split; [lra|]. unv. f_equal; lra.
Qed.
Print Assumptions C59_order_refuted.

(* two boxes with a common tangent point: it is never strictly to one side of itself, so one point is left and
   admissible_kernel fails *)
Theorem C59_shared_refuted : exists (c : comb) (x : Pt) (Ss : list region) (tps : list (Pt * Pt)) (p q : Pt),
  Forall2 (fun o t => mb_tangent_points o x = Ret [fst t; snd t]) (cb_members c) tps /\
  Forall2 (fun A t => tangent_pair A x (fst t) (snd t)) Ss tps /\
  tangent_pair (union Ss) x p q /\ cb_tangent_points c x = Ret [q] /\
  admissible_kernel (cb_tangent_points c) x = Exn IndexErr.
Proof.
  set (c := cb_new [seen (1, 2) (2, 1); seen (1, 2) (3, 1)] None (3, 0)).
  set (Ss := [box_region 1 2 1 2; box_region 1 3 1 2]). set (tps := [((1, 2), (2, 1)); ((1, 2), (3, 1))] : list (Pt * Pt)).
  assert (FS : Forall2 (fun A t => tangent_pair A (0, 0) (fst t) (snd t)) Ss tps).
  { constructor; [|constructor; [|constructor]]; cbn [fst snd]; (apply box_tangents;
      [unfold box_region; cbn [fst snd]; lra|unfold box_region; cbn [fst snd]; lra|unv; lra| |lra|lra]);
      intros p [<-|[<-|[<-|[<-|[]]]]]; unv; lra. }
  assert (E : cb_tangent_points c (0, 0) = Ret [(3, 1)]).
  { unfold cb_tangent_points, c. cbn [cb_new cb_members map_res seen mb_tangent_points bind concat app].
    unfold extreme_candidates. cbn [length seq filter]. unfold extreme_candidate, all_others. cbn [length seq forallb]. unfold same_int. cbn [Nat.eqb Nat.leb andb orb nth].
    turns. reflexivity. }
  exists c, (0, 0), Ss, tps, (1, 2), (3, 1). split; [repeat constructor|]. split; [exact FS|]. split.
  { inversion FS as [|? ? ? ? T1 FS']; subst. inversion FS' as [|? ? ? ? T2 _]; subst. cbn [fst snd] in *.
    destruct T2 as (B1 & B2 & B3 & B4).
    split; [exists (box_region 1 3 1 2); cbn; auto|]. split; [exists (box_region 1 3 1 2); cbn; auto|]. split; [exact B3|].
    intros o (A & [<-|[<-|[]]] & Ao); apply B4; unfold box_region in *; lra. }
  split; [exact E|]. unfold admissible_kernel. rewrite E. reflexivity.
Qed.
Print Assumptions C59_shared_refuted.

(* beyond 257 candidates: the right tangent of the 129th member is lost *)
Theorem C59_late_refuted : exists (c : comb) (x : Pt) (ls : list (list Pt)) (i : nat) (t : Pt) (l : list Pt),
  Forall2 (fun o l => mb_tangent_points o x = Ret l) (cb_members c) ls /\
  nth_error (concat ls) i = Some t /\ all_left x (concat ls) i /\ cb_tangent_points c x = Ret l /\ ~ In t l.
Proof.
  set (ms := repeat (seen (1, 2) (2, 1)) 128 ++ [seen (1, -1) (1, -2)]). set (ls := repeat [(1, 2); (2, 1)] 128 ++ [[(1, -1); (1, -2)]] : list (list Pt)).
  assert (F : Forall2 (fun o l => mb_tangent_points o (0, 0) = Ret l) ms ls).
  { unfold ms, ls. apply Forall2_app; [|repeat constructor]. generalize 128%nat. induction n; cbn [repeat]; constructor; [reflexivity|assumption]. }
  assert (LC : forall n, concat (repeat [(1, 2); (2, 1)] n ++ [[(1, -1); (1, -2)]] : list (list Pt)) = concat (repeat [(1, 2); (2, 1)] n) ++ [(1, -1); (1, -2)]).
  { intros n. rewrite concat_app. reflexivity. }
  assert (LN : forall n, length (concat (repeat [(1, 2); (2, 1)] n : list (list Pt))) = (2 * n)%nat).
  { induction n as [|n IH]; cbn [repeat concat app length]; [reflexivity|]. rewrite IH. lia. }
  assert (LI : forall n u, In u (concat (repeat [(1, 2); (2, 1)] n : list (list Pt))) -> u = (1, 2) \/ u = (2, 1)).
  { induction n as [|n IH]; intros u; cbn [repeat concat app In]; [intros []|]. intros [<-|[<-|I]]; auto. }
  set (pre := concat (repeat [(1, 2); (2, 1)] 128 : list (list Pt))) in *.
  assert (LP : length pre = 256%nat) by (unfold pre; rewrite LN; reflexivity).
  assert (CS : concat ls = pre ++ [(1, -1); (1, -2)]) by apply LC.
  assert (PI : forall u, In u pre -> u = (1, 2) \/ u = (2, 1)) by (intros u; apply LI).
  clearbody pre. 
  exists (cb_new ms None (3, 0)), (0, 0), ls, 257%nat, (1, -2), (extreme_candidates (0, 0) (concat ls)).
  split; [exact F|]. rewrite CS. split; [rewrite nth_error_app2, LP by lia; reflexivity|]. split.
  { exists (1, -2). split; [rewrite nth_error_app2, LP by lia; reflexivity|]. intros j u Nj Ej.
    destruct (Nat.lt_ge_cases j 256) as [L|G].
    - rewrite nth_error_app1 in Ej by lia. apply nth_error_In in Ej. apply PI in Ej as [->| ->]; unfold TH; unv; lra.
    - rewrite nth_error_app2, LP in Ej by lia. destruct (j - 256)%nat as [|[|k]] eqn:Q; [|lia|destruct k; discriminate].
      cbn in Ej. injection Ej as <-. unfold TH. unv. lra. }
  split.
  { unfold cb_tangent_points, cb_new. cbn [cb_members]. apply map_res_Forall2 in F. rewrite F. cbn [bind]. rewrite CS. reflexivity. }
  intros I. unfold extreme_candidates in I. apply in_map_iff in I as (i & Ei & I). apply filter_In in I as [I Ex]. apply in_seq in I.
  destruct (Nat.lt_ge_cases i 257) as [L|G].
  - destruct (Nat.eq_dec i 256) as [->|N].
    + rewrite app_nth2, LP in Ei by lia. cbn [Nat.sub nth] in Ei. injection Ei. lra.
    + rewrite app_nth1 in Ei by lia. assert (J : In (nth i pre (0, 0)) pre) by (apply nth_In; lia). apply PI in J as [J|J]; rewrite J in Ei; injection Ei; lra.
  - rewrite late_candidate in Ex by lia. discriminate.
Qed.
Print Assumptions C59_late_refuted.

Example C59_example : exists (Ss : list region) (tps : list (Pt * Pt)),
  let c := cb_new [seen (1, 2) (2, 1); seen (2, -1) (1, -2)] None (3, 0) in
  Forall2 (fun A t => tangent_pair A (0, 0) (fst t) (snd t)) Ss tps /\ cb_tangent_points c (0, 0) = Ret [(1, 2); (1, -2)].
Proof.
  exists [box_region 1 2 1 2; box_region 1 2 (-2) (-1)], [((1, 2), (2, 1)); ((2, -1), (1, -2))]. cbv zeta. split.
  - constructor; [|constructor; [|constructor]]; cbn [fst snd]; (apply box_tangents;
      [unfold box_region; cbn [fst snd]; lra|unfold box_region; cbn [fst snd]; lra|unv; lra| |lra|lra]);
      intros p [<-|[<-|[<-|[<-|[]]]]]; unv; lra.
  - unfold cb_tangent_points. cbn [cb_new cb_members map_res seen mb_tangent_points bind concat app].
    unfold extreme_candidates. cbn [length seq filter]. unfold extreme_candidate, all_others. cbn [length seq forallb]. unfold same_int. cbn [Nat.eqb Nat.leb andb orb nth].
    turns. reflexivity.
Qed.
