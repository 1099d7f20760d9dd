(** obstacles/starshaped_primitive_combination.py: C60 (boundary mapping), C85 (velocity), C86 (normal), C87 (caches),
    C88 (distance function). *)
From Coq Require Import Reals List Bool Arith ZArith Lra Lia Psatz Permutation.
From Verif Require Import Num M_Cg M_ConePolygon M_Motion M_Obstacle M_Ellipse M_Polygon M_StarPolygon M_Combination
  Spec L_Geom L_Cg L_Obstacle L_Ellipse P_Ellipse L_Polygon P_StarPolygon P_Combination.
Import ListNotations.
Local Open Scope R_scope.

(* the end of the probe segment *)
Definition probe (xr x : Pt) : Pt := vadd xr (smul 10 (vsub x xr)).
Lemma probe_eq xr x : probe_end xr x = probe xr x.
Proof. reflexivity. Qed.

(** *** C60 *)
(* the points l belong to A and one of them is at least as far from xr as any point of A *)
Definition reaches (xr : Pt) (l : list Pt) (A : region) : Prop :=
  (forall p, In p l -> A p) /\ forall p, A p -> exists q, In q l /\ dist p xr <= dist q xr.

Lemma reaches_exact xr l (A : region) : (forall p, In p l <-> A p) -> reaches xr l A.
Proof. intros H. split; intros p Hp; [apply H, Hp|]. exists p. split; [apply H, Hp|lra]. Qed.

Lemma seg_far (xr a b p : Pt) : on_seg a b p -> dist p xr <= dist a xr \/ dist p xr <= dist b xr.
Proof.
  intros (t & Ht & ->). unfold dist.
  replace (vsub (along a b t) xr) with (vadd (smul (1 - t) (vsub a xr)) (smul t (vsub b xr))) by (destruct a, b, xr; unv; f_equal; ring).
  pose proof (norm_triangle (smul (1 - t) (vsub a xr)) (smul t (vsub b xr))) as T. rewrite !norm_smul, !Rabs_right in T by lra.
  destruct (Rle_dec (norm (vsub a xr)) (norm (vsub b xr))) as [L|L]; [right|left].
  - assert ((1 - t) * norm (vsub a xr) <= (1 - t) * norm (vsub b xr)) by (apply Rmult_le_compat_l; lra). lra.
  - assert (t * norm (vsub b xr) <= t * norm (vsub a xr)) by (apply Rmult_le_compat_l; lra). lra.
Qed.
Lemma chain_ends (l : list Pt) a b : In (a, b) (combine l (tl l)) -> In a l /\ In b l.
Proof. intros H. split; [apply in_combine_l in H; exact H|apply in_combine_r in H; destruct l; [destruct H|right; exact H]]. Qed.
Lemma chain_vertex (l : list Pt) p : proper_chain l -> In p l -> on_chain l p.
Proof.
  intros [L _] I. destruct (In_nth _ _ (0, 0) I) as (i & Hi & <-).
  assert (C : forall i, (i + 1 < length l)%nat -> In (nth i l (0, 0), nth (i + 1) l (0, 0)) (combine l (tl l))).
  { clear. induction l as [|a l IH]; intros i Hi; [cbn in Hi; lia|]. destruct l as [|b l]; [cbn in Hi; lia|].
    destruct i as [|i]; [left; reflexivity|]. right. cbn [tl]. specialize (IH i). cbn [tl] in IH. cbn [length] in *. 
    replace (S i + 1)%nat with (S (i + 1)) by lia. apply IH. lia. }
  destruct (Nat.lt_ge_cases (i + 1) (length l)) as [Q|Q].
  - exists (nth i l (0, 0)), (nth (i + 1) l (0, 0)). split; [apply C, Q|]. exists 0. split; [lra|]. destruct (nth i l (0, 0)), (nth (i + 1) l (0, 0)). unv. f_equal; ring.
  - assert (Ei : i = (i - 1 + 1)%nat) by lia. exists (nth (i - 1) l (0, 0)), (nth i l (0, 0)). split; [rewrite Ei at 2; apply C; lia|].
    exists 1. split; [lra|]. destruct (nth i l (0, 0)), (nth (i - 1) l (0, 0)). unv. f_equal; ring.
Qed.
Lemma chain_far xr (l : list Pt) p : on_chain l p -> exists q, In q l /\ dist p xr <= dist q xr.
Proof. intros (a & b & I & S). apply chain_ends in I as [Ia Ib]. destruct (seg_far xr a b p S); eauto. Qed.

Lemma describes_reaches xr g (A : region) l : describes g A -> geom_points g = Ret l -> reaches xr l A.
Proof.
  destruct g as [|q|ps|ch|chs|ps chs]; cbn [describes geom_points]; intros D E; try discriminate; injection E as <-.
  - split; [intros p []|]. intros p Ap. destruct (D p Ap).
  - apply reaches_exact. intros p. rewrite D. cbn. split; [intros [<-|[]]; reflexivity|intros ->; auto].
  - apply reaches_exact. intros p. symmetry. apply D.
  - destruct D as [C D]. split; [intros p I; apply D, chain_vertex; assumption|]. intros p Ap. apply D in Ap. apply chain_far, Ap.
  - destruct D as (_ & C & D). split.
    + intros p I. apply in_concat in I as (ch & I1 & I2). apply D. exists ch. split; [exact I1|]. apply chain_vertex; [|exact I2].
      rewrite Forall_forall in C. apply C, I1.
    + intros p Ap. apply D in Ap as (ch & I1 & I2). destruct (chain_far xr ch p I2) as (q & Iq & L). exists q. split; [|exact L]. apply in_concat. eauto.
Qed.

(* what is assumed of a member's line_intersection and of the hull *)
Definition member_reaches (xr e : Pt) (o : member) (B : region) : Prop :=
  exists l, mb_line_intersection o xr e = Ret l /\ reaches xr l (fun p => B p /\ on_seg xr e p).
Definition hull_reaches (xr e : Pt) (h : option hull_geom) (B : region) : Prop :=
  match h with
  | None => forall p, ~ B p
  | Some g => describes (hg_isect g xr e) (fun p => B p /\ on_seg xr e p) /\ (forall ps ll, hg_isect g xr e <> GOther ps ll)
  end.

Lemma hull_points_reaches xr e h (B : region) : hull_reaches xr e h B -> exists l, hull_points h xr e = Some l /\ reaches xr l (fun p => B p /\ on_seg xr e p).
Proof.
  destruct h as [g|]; cbn [hull_reaches hull_points].
  - intros [D N]. assert (G : exists l, geom_points (hg_isect g xr e) = Ret l /\ match hg_isect g xr e with
      | GEmpty => Some [] | GPoint p => Some [p] | GMultiPoint l => Some l | GLine l => Some l | GMultiLine ll => Some (concat ll) | GOther _ _ => None end = Some l).
    { destruct (hg_isect g xr e) eqn:Q; cbn [geom_points]; eauto. exfalso. eapply N. reflexivity. }
    destruct G as (l & G1 & G2). exists l. split; [exact G2|]. eapply describes_reaches; eassumption.
  - intros N. exists []. split; [reflexivity|]. split; [intros p []|]. intros p [Bp _]. destruct (N p Bp).
Qed.

Lemma all_reach xr e (ms : list member) (Bs : list region) : Forall2 (member_reaches xr e) ms Bs ->
  exists ls, map_res (fun o => mb_line_intersection o xr e) ms = Ret ls /\ reaches xr (concat ls) (fun p => (exists B, In B Bs /\ B p) /\ on_seg xr e p).
Proof.
  induction 1 as [|o B ms Bs (l & El & R1 & R2) F (ls & E & R3 & R4)].
  - exists []. split; [reflexivity|]. split; [intros p []|]. intros p [(B & [] & _) _].
  - exists (l :: ls). cbn [map_res]. rewrite El. cbn [bind]. rewrite E. cbn [bind]. split; [reflexivity|]. cbn [concat]. split.
    + intros p I. apply in_app_or in I as [I|I].
      * destruct (R1 p I) as [Bp S]. split; [exists B; split; [left; reflexivity|exact Bp]|exact S].
      * destruct (R3 p I) as [(B' & IB & Bp) S]. split; [exists B'; split; [right; exact IB|exact Bp]|exact S].
    + intros p [(B' & [<-|IB] & Bp) S].
      * destruct (R2 p (conj Bp S)) as (q & Iq & L). exists q. split; [apply in_or_app; left; exact Iq|exact L].
      * destruct (R4 p (conj (ex_intro _ B' (conj IB Bp)) S)) as (q & Iq & L). exists q. split; [apply in_or_app; right; exact Iq|exact L].
Qed.

Lemma argmax_far xr (l : list Pt) : l <> [] -> 
  let b := nth (argmax (map (fun ip => np_norm (psub ip xr)) l)) l (0, 0) in In b l /\ forall q, In q l -> dist q xr <= dist b xr.
Proof.
  intros NE. set (ds := map (fun ip => np_norm (psub ip xr)) l). assert (ND : ds <> []) by (unfold ds; destruct l; [congruence|discriminate]).
  destruct (argmax_spec ds ND) as [H1 H2]. cbv zeta. set (i := argmax ds) in *.
  assert (LD : length ds = length l) by apply map_length. rewrite LD in *. split; [apply nth_In, H1|].
  intros q Iq. destruct (In_nth _ _ (0, 0) Iq) as (j & Hj & <-). destruct (H2 j Hj) as [Q _].
  assert (N : forall k, (k < length l)%nat -> nth k ds 0 = dist (nth k l (0, 0)) xr).
  { intros k Hk. unfold ds. rewrite (nth_indep _ 0 ((fun ip => np_norm (psub ip xr)) (0, 0))) by (rewrite map_length; exact Hk).
    rewrite (map_nth (fun ip => np_norm (psub ip xr))). reflexivity. }
  rewrite !N in Q by assumption. exact Q.
Qed.

(** The mapped point is the border point of the members and the hull on the probe segment that is farthest from xr; None
    when the segment meets no border. *)
Theorem C60_boundary_mapping_partial : forall (c : comb) (Bs : list region) (B0 : region) (x : Pt),
  let xr := cb_xr c in let e := probe xr x in
  Forall2 (member_reaches xr e) (cb_members c) Bs -> hull_reaches xr e (cb_hull c) B0 ->
  exists ob, cb_boundary_mapping c x = Ret ob /\
    match ob with
    | None => forall B p, In B (B0 :: Bs) -> B p -> ~ on_seg xr e p
    | Some b => on_seg xr e b /\ (exists B, In B (B0 :: Bs) /\ B b) /\
                forall B p, In B (B0 :: Bs) -> B p -> on_seg xr e p -> dist p xr <= dist b xr
    end.
Proof.
  intros c Bs B0 x xr e F H. destruct (all_reach _ _ _ _ F) as (ls & E & R1 & R2). destruct (hull_points_reaches _ _ _ _ H) as (lh & Eh & R3 & R4).
  unfold cb_boundary_mapping, cb_line_intersection. rewrite probe_eq. fold xr e. rewrite E. cbn [bind]. rewrite Eh.
  cbn [bind]. set (l := concat ls ++ lh).
  assert (IN : forall p, In p l -> on_seg xr e p /\ exists B, In B (B0 :: Bs) /\ B p).
  { intros p I. apply in_app_or in I as [I|I].
    - destruct (R1 p I) as [(B & IB & Bp) S]. split; [exact S|]. exists B. split; [right; exact IB|exact Bp].
    - destruct (R3 p I) as [Bp S]. split; [exact S|]. exists B0. split; [left; reflexivity|exact Bp]. }
  assert (OUT : forall B p, In B (B0 :: Bs) -> B p -> on_seg xr e p -> exists q, In q l /\ dist p xr <= dist q xr).
  { intros B p [<-|IB] Bp S.
    - destruct (R4 p (conj Bp S)) as (q & Iq & L). exists q. split; [apply in_or_app; right; exact Iq|exact L].
    - destruct (R2 p (conj (ex_intro _ B (conj IB Bp)) S)) as (q & Iq & L). exists q. split; [apply in_or_app; left; exact Iq|exact L]. }
  assert (CASE : l = [] \/ l <> []) by (destruct l; [left; reflexivity|right; discriminate]). destruct CASE as [El|NE].
  - rewrite El in *. exists None. split; [reflexivity|]. intros B p IB Bp S. destruct (OUT B p IB Bp S) as (q & [] & _).
  - destruct (argmax_far xr l NE) as [I1 I2]. exists (Some (nth (argmax (map (fun ip => np_norm (psub ip xr)) l)) l (0, 0))). split; [destruct l as [|p0 r]; [congruence|reflexivity]|].
    destruct (IN _ I1) as [S W]. split; [exact S|]. split; [exact W|]. intros B p IB Bp Sp.
    destruct (OUT B p IB Bp Sp) as (q & Iq & L). specialize (I2 q Iq). lra.
Qed.
Print Assumptions C60_boundary_mapping_partial.

(* ellipses fit the assumption, with the exceptions of C41 *)
Lemma ellipse_reaches E (l0 l1 : Pt) : 0 < fst (e_a E) -> 0 < snd (e_a E) -> gentle l0 l1 -> clear_crossing (e_a E) l0 l1 ->
  member_reaches (shown (e_mm E) GLOBAL l0) (shown (e_mm E) GLOBAL l1) (ellipse_member E)
    (fun p => exists z, p = shown (e_mm E) GLOBAL z /\ on_ellipse (e_a E) z).
Proof.
  intros A B G C. assert (GG : good GLOBAL) by (left; reflexivity).
  destruct (C41_line_intersection E l0 l1 GLOBAL GLOBAL GG GG A B G C) as (L & EL & _ & I).
  exists L. split; [exact EL|]. apply reaches_exact. intros p. rewrite I. split.
  - intros (z & -> & S & O). split; [exists z; auto|]. destruct S as (t & T & ->). exists t. split; [exact T|]. symmetry. apply P_StarHull.shown_along.
  - intros [(z & -> & O) S]. exists z. split; [reflexivity|]. split; [|exact O]. destruct S as (t & T & Q).
    rewrite P_StarHull.shown_along in Q. apply (P_StarHull.shown_inj _ _ _ _ GG) in Q. exists t. auto.
Qed.


(* discs crossed by a horizontal segment from their centre *)
Lemma disc_seg (r a sg : R) : 1 / 1000 < r -> 1 / 1000 < a -> sg = 1 \/ sg = -1 -> 
  gentle (0, 0) (sg * a, 0) /\ clear_crossing (r, r) (0, 0) (sg * a, 0) /\
  forall z, on_seg (0, 0) (sg * a, 0) z /\ on_ellipse (r, r) z <-> r <= a /\ z = (sg * r, 0).
Proof.
  intros Hr Ha Hs. unfold gentle, clear_crossing, on_line, on_seg, along, on_ellipse, ell_form, vadd, smul, vsub. cbn [fst snd].
  assert (AB : Rabs (sg * a - 0) = a) by (destruct Hs as [-> | ->]; [rewrite Rabs_right by lra|rewrite Rabs_left by lra]; lra).
  rewrite AB. replace (0 - 0) with 0 by lra. rewrite Rabs_R0. split; [lra|]. split.
  - right. exists (sg * r, 0), (- (sg * r), 0). cbn [fst snd]. split; [exists (r / a); apply pair_eq; field; lra|].
    split; [exists (- (r / a)); apply pair_eq; field; lra|].
    assert (S2 : sg * sg = 1) by (destruct Hs as [-> | ->]; lra).
    split; [|split].
    + replace ((sg * r / r) ^ 2) with (sg * sg) by (field; lra). rewrite S2. field. lra.
    + replace ((- (sg * r) / r) ^ 2) with (sg * sg) by (field; lra). rewrite S2. field. lra.
    + destruct Hs as [-> | ->]; [rewrite Rabs_right by lra|rewrite Rabs_left by lra]; lra.
  - intros z. split.
    + intros [(t & T & ->) O]. cbn [fst snd] in O.
      assert (Q : t * a = r).
      { assert (P : (t * a) * (t * a) = r * r).
        { assert (S2 : sg * sg = 1) by (destruct Hs as [-> | ->]; lra).
          replace ((t * a) * (t * a)) with ((((0 + t * (sg * a - 0)) / r) ^ 2 + ((0 + t * 0) / r) ^ 2) * (r * r) * 1).
          - rewrite O. ring.
          - rewrite <- S2 at 1. field_simplify; [|lra]. replace (sg ^ 4) with ((sg * sg) * (sg * sg)) by ring. rewrite S2. ring. }
        assert (0 <= t * a) by (apply Rmult_le_pos; lra). apply Rsqr_inj; [lra|lra|exact P]. }
      assert (Q2 : t * a <= 1 * a) by (apply Rmult_le_compat_r; lra). split; [lra|]. rewrite <- Q. apply pair_eq; ring.
    + intros [L ->]. cbn [fst snd]. assert (S2 : sg * sg = 1) by (destruct Hs as [-> | ->]; lra). split.
      * exists (r / a). split; [split; [apply Rmult_le_pos; [lra|left; apply Rinv_0_lt_compat; lra]|]|apply pair_eq; field; lra].
        apply Rmult_le_reg_r with a; [lra|]. unfold Rdiv. rewrite Rmult_assoc, Rinv_l by lra. lra.
      * replace ((sg * r / r) ^ 2) with (sg * sg) by (field; lra). rewrite S2. field. lra.
Qed.
Lemma disc_dist r sg (pos : Pt) : 0 <= r -> sg = 1 \/ sg = -1 -> dist (vadd (sg * r, 0) pos) pos = r.
Proof.
  intros H1 H2. unfold dist. replace (vsub (vadd (sg * r, 0) pos) pos) with (smul r (sg, 0)) by (destruct pos; unv; f_equal; ring).
  rewrite norm_smul, Rabs_right by lra. unfold norm, norm2, dot. cbn [fst snd]. replace (sg * sg + 0 * 0) with 1 by (destruct H2 as [-> | ->]; lra). rewrite sqrt_1. ring.
Qed.
Definition disc (r : R) (cls : mm_class) (pos : Pt) : ellipse := Ell (r, r) 20 (Some (MM cls pos 0 0 0)) (0, 0).
Definition disc_border (r : R) (pos : Pt) : region := fun p => dist p pos = r.
Lemma disc_shown cls pos z : shown (Some (MM cls pos 0 0 0)) GLOBAL z = vadd z pos.
Proof. unfold shown, place, rotv. cbn [m_rot m_pos]. rewrite cos_0, sin_0. destruct z, pos. unv. f_equal; ring. Qed.
Lemma disc_line r cls (pos : Pt) a sg : 1 / 1000 < r -> 1 / 1000 < a -> sg = 1 \/ sg = -1 ->
  e_line_intersection (disc r cls pos) pos (vadd (sg * a, 0) pos) GLOBAL GLOBAL = Ret (if Rle_dec r a then [vadd (sg * r, 0) pos] else []).
Proof.
  intros Hr Ha Hs. destruct (disc_seg r a sg Hr Ha Hs) as (G & C & I). assert (GG : good GLOBAL) by (left; reflexivity).
  destruct (C41_line_intersection (disc r cls pos) (0, 0) (sg * a, 0) GLOBAL GLOBAL GG GG) as (L & E & N & M); try assumption; cbn [disc e_a fst snd]; try lra.
  cbn [disc e_mm] in E. rewrite !disc_shown in E. replace (vadd (0, 0) pos) with pos in E by (destruct pos; unv; f_equal; ring). fold (disc r cls pos) in E.
  rewrite E. f_equal. cbn [disc e_mm e_a] in M. 
  assert (K : forall p, In p L <-> r <= a /\ p = vadd (sg * r, 0) pos).
  { intros p. rewrite M. split.
    - intros (z & -> & Z). apply I in Z as [L0 ->]. rewrite disc_shown. auto.
    - intros [L0 ->]. exists (sg * r, 0). rewrite disc_shown. split; [reflexivity|]. apply I. auto. }
  clear - N K. destruct (Rle_dec r a) as [D|D].
  - destruct L as [|p [|q L]].
    + destruct (proj2 (K (vadd (sg * r, 0) pos))) as []; auto.
    + destruct (proj1 (K p)) as [_ ->]; [left; reflexivity|reflexivity].
    + destruct (proj1 (K p)) as [_ ->]; [left; reflexivity|]. destruct (proj1 (K q)) as [_ ->]; [right; left; reflexivity|].
      inversion N as [|? ? X _]. destruct X. left. reflexivity.
  - destruct L as [|p L]; [reflexivity|]. destruct (proj1 (K p)) as [X _]; [left; reflexivity|]. contradiction.
Qed.

Lemma disc_location r cls (pos z : Pt) : 0 < r -> exists loc, e_point_location (disc r cls pos) (vadd z pos) GLOBAL = Ret loc /\
  (loc < 0 <-> norm2 z < r * r) /\ (0 < loc <-> r * r < norm2 z).
Proof.
  intros Hr. destruct (C40_point_location (disc r cls pos) GLOBAL z (or_introl eq_refl)) as (loc & E & L1 & _ & L2).
  cbn [disc e_mm e_a] in *. rewrite disc_shown in E. exists loc. split; [exact E|].
  assert (Q : ell_form (r, r) z * (r * r) = norm2 z) by (unfold ell_form; unv; destruct z; cbn [fst snd]; field; lra).
  assert (RR : 0 < r * r) by (apply Rmult_lt_0_compat; lra). rewrite L1, L2, <- Q. split; split; intros H.
  - assert (ell_form (r, r) z * (r * r) < 1 * (r * r)) by (apply Rmult_lt_compat_r; lra). lra.
  - apply Rmult_lt_reg_r with (r * r); lra.
  - assert (1 * (r * r) < ell_form (r, r) z * (r * r)) by (apply Rmult_lt_compat_r; lra). lra.
  - apply Rmult_lt_reg_r with (r * r); lra.
Qed.
(** A point close to the reference point: the probe ends inside the obstacle, nothing is found and distance_function fails. *)
Theorem C60_near_refuted : exists (c : comb) (E : ellipse) (x : Pt), cb_members c = [ellipse_member E] /\ cb_hull c = None /\
  x <> cb_xr c /\ cb_point_location c x = Ret (-1) /\ cb_boundary_mapping c x = Ret None /\ cb_distance_function c x = Exn TypeErr.
Proof.
  exists (cb_new [ellipse_member (disc 1 CStatic (0, 0))] None (0, 0)), (disc 1 CStatic (0, 0)), (1 / 20, 0).
  split; [reflexivity|]. split; [reflexivity|]. split; [intros Q; injection Q; lra|].
  assert (E : cb_boundary_mapping (cb_new [ellipse_member (disc 1 CStatic (0, 0))] None (0, 0)) (1 / 20, 0) = Ret None).
  { unfold cb_boundary_mapping, cb_line_intersection. cbn [cb_new cb_xr cb_members cb_hull map_res ellipse_member mb_line_intersection].
    replace (probe_end (0, 0) (1 / 20, 0)) with (vadd (1 * (1 / 2), 0) (0, 0)) by (rewrite probe_eq; unfold probe; unv; f_equal; lra).
    rewrite disc_line by (try lra; left; reflexivity). destruct (Rle_dec 1 (1 / 2)); [lra|]. reflexivity. }
  split; [|split; [exact E|unfold cb_distance_function; rewrite E; reflexivity]].
  unfold cb_point_location. cbn [cb_new cb_members map_res ellipse_member mb_location]. 
  destruct (disc_location 1 CStatic (0, 0) (1 / 20, 0) Rlt_0_1) as (loc & E1 & E2 & _).
  replace (vadd (1 / 20, 0) (0, 0)) with ((1 / 20, 0) : Pt) in E1 by (unv; f_equal; lra). rewrite E1. cbn [bind app existsb].
  destruct (Rltb_spec loc 0) as [_|X]; [reflexivity|]. exfalso. apply (Rle_not_lt _ _ X), E2. unfold norm2, dot. cbn [fst snd]. lra.
Qed.
Print Assumptions C60_near_refuted.

(** A geometry collection (the probe runs along one edge of the hull and crosses another) is not handled. *)
Definition wedge : list Pt := [(0, 0); (2, 0); (3, -1); (5, 0); (3, 3)].
Definition ring_border (v : list Pt) : region := fun p => exists e, In e (cyc_edges v) /\ on_seg (fst e) (snd e) p.
Definition wedge_isect : geom := GOther [(5, 0)] [[(0, 0); (2, 0)]].
Theorem C60_collection_refuted : exists (c : comb) (g : hull_geom) (x : Pt), cb_hull c = Some g /\ x <> cb_xr c /\
  let xr := cb_xr c in let e := probe xr x in
  describes (hg_isect g xr e) (fun p => ring_border (hg_vertices g) p /\ on_seg xr e p) /\
  cb_boundary_mapping c x = Exn TypeErr.
Proof.
  set (g := HullGeom (fun _ => false) (fun _ => false) (fun _ _ => wedge_isect) wedge).
  exists (cb_new [ellipse_member (disc 1 CStatic (0, 0))] (Some g) (0, 0)), g, (1, 0).
  split; [reflexivity|]. split; [intros Q; injection Q; lra|]. cbn [cb_new cb_xr cb_hull]. cbv zeta. 
  assert (PE : probe (0, 0) (1, 0) = vadd (1 * 10, 0) (0, 0)) by (unfold probe; unv; f_equal; lra). rewrite PE. split.
  - cbn [g hg_isect describes wedge_isect hg_vertices]. split; [discriminate|]. split; [discriminate|]. split.
    + constructor; [|constructor]. split; [cbn; lia|]. intros a b [Q|[]]. injection Q as <- <-. intros X; injection X; lra.
    + intros p. unfold ring_border, wedge, on_chain. cbn [cyc_edges app combine In tl]. split.
      * intros [(e & Ie & S) (t & T & Q)]. assert (Y : snd p = 0) by (rewrite Q; unv; lra). assert (X : 0 <= fst p) by (rewrite Q; unv; lra).
        clear t T Q. destruct Ie as [<-|[<-|[<-|[<-|[<-|[]]]]]]; destruct S as (t & T & Q); cbn [fst snd] in Q; unfold along, vadd, smul, vsub in Q; cbn [fst snd] in Q;
          rewrite Q in X, Y; cbn [fst snd] in X, Y.
        -- right. exists [(0, 0); (2, 0)]. split; [left; reflexivity|]. exists (0, 0), (2, 0). split; [left; reflexivity|]. exists t. split; [exact T|exact Q].
        -- right. exists [(0, 0); (2, 0)]. split; [left; reflexivity|]. exists (0, 0), (2, 0). split; [left; reflexivity|]. exists 1. split; [lra|].
           rewrite Q. unv. apply pair_eq; lra.
        -- left. left. rewrite Q. apply pair_eq; lra.
        -- left. left. rewrite Q. apply pair_eq; lra.
        -- right. exists [(0, 0); (2, 0)]. split; [left; reflexivity|]. exists (0, 0), (2, 0). split; [left; reflexivity|]. exists 0. split; [lra|].
           rewrite Q. unv. apply pair_eq; lra.
      * intros [[<-|[]]|(l & [<-|[]] & (a & b & [Q|[]] & (t & T & E)))].
        -- split; [|exists (1 / 2); split; [lra|unv; apply pair_eq; lra]]. exists ((3, -1), (5, 0)). split; [tauto|]. exists 1. split; [lra|]. unv. apply pair_eq; lra.
        -- injection Q as <- <-. split; [exists ((0, 0), (2, 0)); split; [tauto|exists t; auto]|]. exists (t / 5). split; [lra|]. rewrite E. unv. apply pair_eq; lra.
  - unfold cb_boundary_mapping, cb_line_intersection. cbn [cb_new cb_xr cb_members cb_hull map_res ellipse_member mb_line_intersection].
    rewrite probe_eq, PE, disc_line by (try lra; left; reflexivity). destruct (Rle_dec 1 10); [|lra]. reflexivity.
Qed.
Print Assumptions C60_collection_refuted.

Lemma disc_reaches r a cls : 1 / 1000 < r -> r <= a -> member_reaches (10, 0) (vadd (-1 * a, 0) (10, 0)) (ellipse_member (disc r cls (10, 0))) (disc_border r (10, 0)).
Proof.
  intros R1 R2. exists [vadd (-1 * r, 0) (10, 0)]. cbn [ellipse_member mb_line_intersection]. rewrite disc_line by (try lra; right; reflexivity).
  destruct (Rle_dec r a); [|lra]. split; [reflexivity|]. apply reaches_exact. intros p. split.
  - intros [<-|[]]. split.
    + apply disc_dist; [lra|right; reflexivity].
    + exists (r / a). split; [|unv; apply pair_eq; field; lra]. split; [apply Rmult_le_pos; [lra|left; apply Rinv_0_lt_compat; lra]|].
      apply Rmult_le_reg_r with a; [lra|]. unfold Rdiv. rewrite Rmult_assoc, Rinv_l by lra. lra.
  - intros [B (t & T & Q)]. left. unfold disc_border, dist in B. rewrite Q in B |- *.
    replace (vsub (along (10, 0) (vadd (-1 * a, 0) (10, 0)) t) (10, 0)) with (smul (a * t) (-1, 0)) in B by (unv; f_equal; ring).
    assert (0 <= a * t) by (apply Rmult_le_pos; lra).
    rewrite norm_smul, Rabs_right in B by lra. unfold norm, norm2, dot in B. cbn [fst snd] in B. replace (-1 * -1 + 0 * 0) with 1 in B by ring. rewrite sqrt_1 in B.
    unv. apply pair_eq; lra.
Qed.
(** two concentric discs: the probe reaches both *)
Example C60_example : let c := cb_new [ellipse_member (disc 1 CStatic (10, 0)); ellipse_member (disc 2 CStatic (10, 0))] None (10, 0) in
  let e := probe (10, 0) (7, 0) in
  Forall2 (member_reaches (10, 0) e) (cb_members c) [disc_border 1 (10, 0); disc_border 2 (10, 0)] /\
  hull_reaches (10, 0) e (cb_hull c) (fun _ => False) /\ cb_boundary_mapping c (7, 0) = Ret (Some (8, 0)).
Proof.
  cbv zeta. assert (PE : probe (10, 0) (7, 0) = vadd (-1 * 30, 0) (10, 0)) by (unfold probe; unv; f_equal; lra).
  rewrite PE. split; [|split].
  - constructor; [apply disc_reaches; lra|constructor; [apply disc_reaches; lra|constructor]].
  - intros p [].
  - unfold cb_boundary_mapping, cb_line_intersection. cbn [cb_new cb_xr cb_members cb_hull map_res ellipse_member mb_line_intersection].
    rewrite probe_eq, PE, !disc_line by (try lra; right; reflexivity). destruct (Rle_dec 1 30); [|lra]. destruct (Rle_dec 2 30); [|lra].
    cbn [bind hull_points concat app map]. f_equal. f_equal.
    set (l := [vadd (-1 * 1, 0) (10, 0); vadd (-1 * 2, 0) (10, 0)]).
    assert (NE : l <> []) by discriminate. destruct (argmax_far (10, 0) l NE) as [I M]. cbv zeta in I, M.
    set (b := nth (argmax (map (fun ip => np_norm (psub ip (10, 0))) l)) l (0, 0)) in *. change (b = (8, 0)).
    specialize (M (vadd (-1 * 2, 0) (10, 0)) (or_intror (or_introl eq_refl))). destruct I as [I|[I|[]]].
    + rewrite <- I in M. rewrite !disc_dist in M by (try lra; right; reflexivity). lra.
    + rewrite <- I. unv. apply pair_eq; lra.
Qed.

(** *** C88 *)
Lemma dist_nonneg (p q : Pt) : 0 <= dist p q.
Proof. apply sqrt_pos. Qed.
Lemma ratio_sq (a b : R) : 0 <= a -> 0 < b -> 0 <= (a / b) ^ 2 /\ ((a / b) ^ 2 < 1 <-> a < b) /\ ((a / b) ^ 2 = 1 <-> a = b).
Proof.
  intros A B. assert (Q : 0 <= a / b) by (apply Rmult_le_pos; [lra|left; apply Rinv_0_lt_compat; lra]).
  assert (K : a = a / b * b) by (field; lra). set (t := a / b) in *.
  assert (P1 : t < 1 -> t * b < 1 * b) by (intros; apply Rmult_lt_compat_r; lra). assert (P2 : 1 < t -> 1 * b < t * b) by (intros; apply Rmult_lt_compat_r; lra).
  assert (P3 : t = 1 -> t * b = b) by (intros ->; ring).
  split; [nra|]. split; split; intros H.
  - assert (t < 1) by nra. lra.
  - assert (t < 1) by (destruct (Rlt_le_dec t 1) as [|X]; [assumption|]; destruct X; [lra|rewrite P3 in K; lra]). nra.
  - assert (t = 1) by nra. lra.
  - assert (t = 1) by (destruct (Rtotal_order t 1) as [X|[X|X]]; [|exact X|]; lra). nra.
Qed.
(** The value compares the distances of x and of the mapped point. *)
Theorem C88_value : forall c x d, cb_distance_function c x = Ret d -> exists b, cb_boundary_mapping c x = Ret (Some b) /\ b <> cb_xr c /\
  0 <= d /\ (d < 1 <-> dist x (cb_xr c) < dist b (cb_xr c)) /\ (d = 1 <-> dist x (cb_xr c) = dist b (cb_xr c)).
Proof.
  intros c x d H. unfold cb_distance_function in H. destruct (cb_boundary_mapping c x) as [[b|]|]; cbn [bind] in H; try discriminate. cbv zeta in H.
  change (np_norm (psub b (cb_xr c))) with (dist b (cb_xr c)) in H. change (np_norm (psub x (cb_xr c))) with (dist x (cb_xr c)) in H.
  destruct (Reqb_spec (dist b (cb_xr c)) 0) as [Z|Z]; [discriminate|]. injection H as <-. exists b. split; [reflexivity|].
  split; [intros ->; apply Z, dist_refl|]. apply ratio_sq; [apply dist_nonneg|]. pose proof (dist_nonneg b (cb_xr c)). lra.
Qed.
Print Assumptions C88_value.
(** It decides membership in the union when that is starshaped from xr and the probe reaches its last border point. *)
Theorem C88_inside_partial : forall (c : comb) (Bs : list region) (B0 A : region) (x : Pt),
  let xr := cb_xr c in let e := probe xr x in
  Forall2 (member_reaches xr e) (cb_members c) Bs -> hull_reaches xr e (cb_hull c) B0 ->
  starshaped_from A xr -> (forall B p, In B (B0 :: Bs) -> B p -> A p) ->
  (exists p, A p /\ on_ray xr x p /\ p <> xr) ->
  (forall p, A p -> on_ray xr x p -> exists B q, In B (B0 :: Bs) /\ B q /\ on_seg xr e q /\ dist p xr <= dist q xr) ->
  exists d, cb_distance_function c x = Ret d /\ (d <= 1 <-> A x).
Proof.
  intros c Bs B0 A x xr e F H ST BA (p0 & A0 & R0 & N0) RE.
  destruct (C60_boundary_mapping_partial c Bs B0 x F H) as (ob & E & W). fold xr e in W.
  destruct (RE p0 A0 R0) as (B1 & q1 & I1 & Q1 & S1 & L1). destruct ob as [b|]; [|exfalso; exact (W B1 q1 I1 Q1 S1)].
  destruct W as (SB & (B & IB & Bb) & M). specialize (M B1 q1 I1 Q1 S1) as M1.
  assert (P0 : 0 < dist p0 xr) by (destruct (Rle_lt_or_eq_dec 0 (dist p0 xr) (dist_nonneg _ _)) as [|Z]; [assumption|]; symmetry in Z; apply dist_zero in Z; contradiction).
  assert (PB : 0 < dist b xr) by lra.
  unfold cb_distance_function. rewrite E. cbn [bind]. cbv zeta. change (np_norm (psub b (cb_xr c))) with (dist b xr). change (np_norm (psub x (cb_xr c))) with (dist x xr).
  destruct (Reqb_spec (dist b xr) 0) as [Z|Z]; [lra|]. eexists. split; [reflexivity|].
  destruct (ratio_sq (dist x xr) (dist b xr) (dist_nonneg _ _) PB) as (_ & C1 & C2).
  assert (LE : (dist x xr / dist b xr) ^ 2 <= 1 <-> dist x xr <= dist b xr) by (split; intros [X|X]; [left; apply C1, X|right; apply C2, X|left; apply C1, X|right; apply C2, X]).
  rewrite LE. split.
  - intros L. destruct SB as (t & T & Eb). assert (Db : dist b xr = 10 * t * dist x xr).
    { rewrite Eb. unfold dist. replace (vsub (along xr e t) xr) with (smul (10 * t) (vsub x xr)) by (unfold e, probe; destruct xr, x; unv; f_equal; ring).
      rewrite norm_smul, Rabs_right by lra. reflexivity. }
    assert (PX : 0 < dist x xr). { destruct (Rle_lt_or_eq_dec 0 (dist x xr) (dist_nonneg _ _)) as [|X]; [assumption|]. rewrite <- X in Db. lra. }
    assert (T1 : 1 <= 10 * t). { destruct (Rle_lt_dec 1 (10 * t)) as [|X]; [assumption|]. assert (10 * t * dist x xr < 1 * dist x xr) by (apply Rmult_lt_compat_r; lra). lra. }
    apply (ST b x (BA B b IB Bb)). exists (/ (10 * t)). split.
    + split; [left; apply Rinv_0_lt_compat; lra|]. rewrite <- Rinv_1. apply Rinv_le_contravar; lra.
    + rewrite Eb. unfold e, probe. destruct xr, x. unv. apply pair_eq; field; lra.
  - intros Ax. destruct (RE x Ax) as (B2 & q2 & I2 & Q2 & S2 & L2). { exists 1. split; [lra|]. destruct xr, x. unv. f_equal; ring. }
    specialize (M B2 q2 I2 Q2 S2). lra.
Qed.
Print Assumptions C88_inside_partial.

(** A point inside a large member gets a value above 1 when the probe ends inside it but crosses a small member. *)
Theorem C88_refuted : exists (E1 E2 : ellipse) (x : Pt) (d : R), let c := cb_new [ellipse_member E1; ellipse_member E2] None (0, 0) in
  cb_point_location c (0, 0) = Ret (-1) /\ cb_point_location c x = Ret (-1) /\ cb_distance_function c x = Ret d /\ d = 4.
Proof.
  exists (disc 1 CStatic (0, 0)), (disc 100 CStatic (0, 0)), (2, 0), ((2 / 1) ^ 2). cbv zeta.
  assert (LOC : forall z, norm2 z < 100 * 100 -> cb_point_location (cb_new [ellipse_member (disc 1 CStatic (0, 0)); ellipse_member (disc 100 CStatic (0, 0))] None (0, 0)) z = Ret (-1)).
  { intros z Hz. unfold cb_point_location. cbn [cb_new cb_members map_res ellipse_member mb_location].
    destruct (disc_location 1 CStatic (0, 0) z) as (l1 & E1 & _); [lra|]. destruct (disc_location 100 CStatic (0, 0) z) as (l2 & E2 & W & _); [lra|].
    replace (vadd z (0, 0)) with z in E1, E2 by (destruct z; unv; f_equal; ring). rewrite E1, E2. cbn [bind app existsb]. destruct (Rltb_spec l1 0); [reflexivity|].
    destruct (Rltb_spec l2 0) as [|X]; [reflexivity|]. exfalso. apply (Rle_not_lt _ _ X), W, Hz. }
  split; [apply LOC; unfold norm2, dot; cbn [fst snd]; lra|]. split; [apply LOC; unfold norm2, dot; cbn [fst snd]; lra|]. split; [|lra].
  unfold cb_distance_function, cb_boundary_mapping, cb_line_intersection. cbn [cb_new cb_xr cb_members cb_hull map_res ellipse_member mb_line_intersection].
  assert (PE : probe (0, 0) (2, 0) = vadd (1 * 20, 0) (0, 0)) by (unfold probe; unv; f_equal; lra).
  rewrite probe_eq, PE, !disc_line by (try lra; left; reflexivity). destruct (Rle_dec 1 20); [|lra]. destruct (Rle_dec 100 20); [lra|].
  cbn [bind hull_points concat app map]. cbv zeta. change (nth (argmax [np_norm (psub (vadd (1 * 1, 0) (0, 0)) (0, 0))]) [vadd (1 * 1, 0) (0, 0)] (0, 0)) with (vadd (1 * 1, 0) (0, 0)).
  change (np_norm (psub (vadd (1 * 1, 0) (0, 0)) (0, 0))) with (dist (vadd (1 * 1, 0) (0, 0)) (0, 0)). rewrite disc_dist by (try lra; left; reflexivity).
  change (np_norm (psub (2, 0) (0, 0))) with (dist (2, 0) (0, 0)). replace (dist (2, 0) (0, 0)) with 2.
  - destruct (Reqb_spec 1 0); [lra|]. reflexivity.
  - replace ((2, 0) : Pt) with (vadd (1 * 2, 0) (0, 0)) by (unv; f_equal; lra). rewrite disc_dist by (try lra; left; reflexivity). reflexivity.
Qed.
Print Assumptions C88_refuted.

Example C88_example : let c := cb_new [ellipse_member (disc 1 CStatic (10, 0)); ellipse_member (disc 2 CStatic (10, 0))] None (10, 0) in
  let A := (fun p => dist p (10, 0) <= 2) : region in let Bs := [disc_border 1 (10, 0); disc_border 2 (10, 0)] in let B0 := (fun _ => False) : region in
  let xr := cb_xr c in let e := probe xr (9, 0) in
  Forall2 (member_reaches xr e) (cb_members c) Bs /\ hull_reaches xr e (cb_hull c) B0 /\
  starshaped_from A xr /\ (forall B p, In B (B0 :: Bs) -> B p -> A p) /\
  (exists p, A p /\ on_ray xr (9, 0) p /\ p <> xr) /\
  (forall p, A p -> on_ray xr (9, 0) p -> exists B q, In B (B0 :: Bs) /\ B q /\ on_seg xr e q /\ dist p xr <= dist q xr).
Proof.
  cbv zeta. cbn [cb_new cb_xr cb_members cb_hull].
  assert (PE : probe (10, 0) (9, 0) = vadd (-1 * 10, 0) (10, 0)) by (unfold probe; unv; f_equal; lra). rewrite PE.
  split; [|split; [|split; [|split; [|split]]]].
  - constructor; [apply disc_reaches; lra|constructor; [apply disc_reaches; lra|constructor]].
  - intros p [].
  - intros p r Hp (t & T & ->). unfold dist in *. replace (vsub (along (10, 0) p t) (10, 0)) with (smul t (vsub p (10, 0))) by (destruct p; unv; f_equal; ring).
    rewrite norm_smul, Rabs_right by lra. pose proof (dist_nonneg p (10, 0)) as N. unfold dist in N.
    assert (t * norm (vsub p (10, 0)) <= 1 * norm (vsub p (10, 0))) by (apply Rmult_le_compat_r; lra). lra.
  - intros B p [<-|[<-|[<-|[]]]] H; [destruct H|unfold disc_border in H; lra|unfold disc_border in H; lra].
  - exists (vadd (-1 * 1, 0) (10, 0)). split; [rewrite disc_dist by (try lra; right; reflexivity); lra|]. split.
    + exists 1. split; [lra|]. unv. f_equal; lra.
    + intros Q. apply (f_equal fst) in Q. cbn [vadd fst] in Q. lra.
  - intros p Hp _. exists (disc_border 2 (10, 0)), (vadd (-1 * 2, 0) (10, 0)). split; [right; right; left; reflexivity|].
    split; [apply disc_dist; [lra|right; reflexivity]|]. split; [exists (1 / 5); split; [lra|unv; f_equal; lra]|].
    rewrite disc_dist by (try lra; right; reflexivity). exact Hp.
Qed.

(** *** C85 *)
(* at xr = 0 the key of a point is its largest coordinate, up to a factor *)
Lemma key_origin (p : Pt) : point_key (0, 0) p = sqrt 2 * Rmax (Rabs (fst p)) (Rabs (snd p)).
Proof.
  assert (C : forall u, coordinate_dist (0, 0) u = sqrt 2 * Rabs u).
  { intros u. unfold coordinate_dist. cbn [fst snd]. change (norm (u - 0, u - 0) = sqrt 2 * Rabs u).
    replace ((u - 0, u - 0) : Pt) with (smul u (1, 1)) by (unv; f_equal; ring). rewrite norm_smul. unfold norm, norm2, dot. cbn [fst snd].
    replace (1 * 1 + 1 * 1) with 2 by ring. ring. }
  unfold point_key. rewrite !C. pose proof (sqrt_pos 2) as P. pose proof (Rabs_pos (fst p)). pose proof (Rabs_pos (snd p)).
  rewrite RmaxRmult by exact P. apply Rmax_left. pose proof (Rmax_l (Rabs (fst p)) (Rabs (snd p))).
  assert (0 <= sqrt 2 * Rmax (Rabs (fst p)) (Rabs (snd p))) by (apply Rmult_le_pos; lra). lra.
Qed.
(* the loop returns the first position of the largest key *)
Lemma best_index_spec xr : forall l best m i, let k := best_index xr best m i l in
  (k = best /\ forall q, In q l -> point_key xr q <= m) \/
  (exists j p, k = (i + j)%nat /\ nth_error l j = Some p /\ m < point_key xr p /\ (forall q, In q l -> point_key xr q <= point_key xr p) /\
     forall j' q, (j' < j)%nat -> nth_error l j' = Some q -> point_key xr q < point_key xr p).
Proof.
  induction l as [|p l IH]; intros best m i; cbn [best_index]; [left; split; [reflexivity|intros q []]|].
  destruct (Rltb_spec m (point_key xr p)) as [L|L].
  - right. destruct (IH i (point_key xr p) (S i)) as [[E M]|(j & q & E & Nj & K & M & F)].
    + exists 0%nat, p. cbv zeta in E. rewrite E. split; [lia|]. split; [reflexivity|]. split; [exact L|]. split; [|intros j' q Hj; lia].
      intros q [<-|Iq]; [lra|apply M, Iq].
    + exists (S j), q. cbv zeta in E. rewrite E. split; [lia|]. split; [exact Nj|]. split; [lra|]. split.
      * intros r [<-|Ir]; [lra|apply M, Ir].
      * intros [|j'] r Hj; cbn [nth_error]; [intros X; injection X as <-; exact K|]. intros X. apply (F j' r); [lia|exact X].
  - destruct (IH best m (S i)) as [[E M]|(j & q & E & Nj & K & M & F)].
    + left. cbv zeta in E. rewrite E. split; [reflexivity|]. intros q [<-|Iq]; [lra|apply M, Iq].
    + right. exists (S j), q. cbv zeta in E. rewrite E. split; [lia|]. split; [exact Nj|]. split; [exact K|]. split.
      * intros r [<-|Ir]; [lra|apply M, Ir].
      * intros [|j'] r Hj; cbn [nth_error]; [intros X; injection X as <-; lra|]. intros X. apply (F j' r); [lia|exact X].
Qed.
Lemma key_order (x p q : Pt) : x <> (0, 0) -> on_seg (0, 0) (probe (0, 0) x) p -> on_seg (0, 0) (probe (0, 0) x) q ->
  (point_key (0, 0) p <= point_key (0, 0) q <-> dist p (0, 0) <= dist q (0, 0)).
Proof.
  intros NX (t & T & ->) (u & U & ->). rewrite !key_origin.
  assert (C : forall t, 0 <= t -> let p := along (0, 0) (probe (0, 0) x) t in
    sqrt 2 * Rmax (Rabs (fst p)) (Rabs (snd p)) = t * (10 * sqrt 2 * Rmax (Rabs (fst x)) (Rabs (snd x))) /\ dist p (0, 0) = t * (10 * norm x)).
  { intros w W. cbv zeta. split.
    - replace (along (0, 0) (probe (0, 0) x) w) with ((w * 10 * fst x, w * 10 * snd x) : Pt) by (unfold probe; destruct x; unv; f_equal; ring).
      cbn [fst snd]. rewrite !Rabs_mult, (Rabs_right w), (Rabs_right 10) by lra.
      assert (P : 0 <= w * 10) by lra. rewrite (RmaxRmult _ _ _ P). ring.
    - unfold dist. replace (vsub (along (0, 0) (probe (0, 0) x) w) (0, 0)) with (smul (w * 10) x) by (unfold probe; destruct x; unv; f_equal; ring).
      rewrite norm_smul, Rabs_right by lra. ring. }
  destruct (C t (proj1 T)) as [-> ->]. destruct (C u (proj1 U)) as [-> ->].
  assert (K1 : 0 < Rmax (Rabs (fst x)) (Rabs (snd x))).
  { pose proof (Rmax_l (Rabs (fst x)) (Rabs (snd x))). pose proof (Rmax_r (Rabs (fst x)) (Rabs (snd x))). pose proof (Rabs_pos (fst x)). pose proof (Rabs_pos (snd x)).
    destruct (Req_dec (fst x) 0) as [Z1|Z1]; [|apply Rabs_pos_lt in Z1; lra]. destruct (Req_dec (snd x) 0) as [Z2|Z2]; [|apply Rabs_pos_lt in Z2; lra].
    destruct x; cbn [fst snd] in *; subst; congruence. }
  assert (K2 : 0 < norm x).
  { pose proof (dist_nonneg x (0, 0)) as D. replace (norm x) with (dist x (0, 0)) by (unfold dist; f_equal; destruct x; unv; f_equal; ring).
    destruct D as [D|D]; [exact D|]. symmetry in D. apply dist_zero in D. contradiction. }
  assert (K3 : 0 < sqrt 2) by (apply sqrt_lt_R0; lra).
  assert (K4 : 0 < 10 * sqrt 2 * Rmax (Rabs (fst x)) (Rabs (snd x))) by (apply Rmult_lt_0_compat; lra).
  split; intros H.
  - apply Rmult_le_compat_r; [lra|]. apply Rmult_le_reg_r in H; assumption.
  - apply Rmult_le_compat_r; [lra|]. apply Rmult_le_reg_r in H; [assumption|lra].
Qed.

(** With the reference point at the origin, no hull border on the probe and one intersection per member, the velocity is
    that of the member whose border is met last. *)
Theorem C85_vel_partial : forall (c : comb) (x : Pt) (ps : list Pt), let e := probe (cb_xr c) x in
  cb_xr c = (0, 0) -> x <> (0, 0) -> cb_members c <> [] -> hull_points (cb_hull c) (cb_xr c) e = Some [] ->
  Forall2 (fun o p => mb_line_intersection o (cb_xr c) e = Ret [p]) (cb_members c) ps -> Forall (on_seg (cb_xr c) e) ps ->
  exists k o p, nth_error (cb_members c) k = Some o /\ nth_error ps k = Some p /\ cb_vel c x = mb_vel o x /\
    forall q, In q ps -> dist q (cb_xr c) <= dist p (cb_xr c).
Proof.
  intros c x ps e X0 NX NM HH F S. unfold cb_vel, cb_line_intersection. rewrite probe_eq. fold e.
  assert (E : forall ms ps, Forall2 (fun o p => mb_line_intersection o (cb_xr c) e = Ret [p]) ms ps -> map_res (fun o => mb_line_intersection o (cb_xr c) e) ms = Ret (map (fun p => [p]) ps)).
  { clear. induction 1 as [|o p ms ps H F IH]; [reflexivity|]. cbn [map_res]. rewrite H. cbn [bind]. rewrite IH. reflexivity. }
  rewrite (E _ _ F). cbn [bind]. rewrite HH, app_nil_r. replace (concat (map (fun p => [p]) ps)) with ps by (clear; induction ps as [|p ps IH]; cbn; congruence).
  cbn [bind]. cbv zeta.
  assert (L : length (cb_members c) = length ps) by (clear - F; induction F; cbn; congruence).
  assert (LP : (0 < length ps)%nat) by (rewrite <- L; destruct (cb_members c); [congruence|cbn; lia]).
  rewrite X0 in *.
  destruct (best_index_spec (0, 0) ps 0 (-1) 0) as [[K M]|(j & p & K & Nj & _ & M & _)]; cbv zeta in K.
  - exfalso. destruct ps as [|p ps]; [cbn in LP; lia|]. specialize (M p (or_introl eq_refl)). rewrite key_origin in M.
    pose proof (Rmax_l (Rabs (fst p)) (Rabs (snd p))). pose proof (Rabs_pos (fst p)). pose proof (sqrt_pos 2).
    assert (0 <= sqrt 2 * Rmax (Rabs (fst p)) (Rabs (snd p))) by (apply Rmult_le_pos; lra). lra.
  - rewrite K. cbn [Nat.add]. assert (Hj : (j < length ps)%nat) by (apply nth_error_Some; congruence).
    replace (length (cb_members c) <=? j)%nat with false by (symmetry; apply Nat.leb_gt; lia).
    destruct (nth_error (cb_members c) j) as [o|] eqn:Eo; [|apply nth_error_None in Eo; lia].
    exists j, o, p. split; [exact Eo|]. split; [exact Nj|]. split; [reflexivity|]. intros q Iq. rewrite Forall_forall in S. assert (Ee : e = probe (0, 0) x) by (unfold e; rewrite X0; reflexivity). rewrite Ee in S. apply (key_order x).
    + exact NX. + apply S, Iq. + apply S. eapply nth_error_In, Nj. + apply M, Iq.
Qed.
Print Assumptions C85_vel_partial.
(** A single member: at most two intersections. *)
Theorem C85_single : forall (c : comb) (o : member) (x : Pt) l, cb_members c = [o] -> cb_line_intersection c (cb_xr c) (probe (cb_xr c) x) = Ret l ->
  (length l <= 2)%nat -> cb_vel c x = mb_vel o x.
Proof.
  intros c o x l M E L. unfold cb_vel. rewrite probe_eq, E, M. cbn [bind length]. cbv zeta.
  destruct (best_index_spec (cb_xr c) l 0 (-1) 0) as [[K _]|(j & p & K & Nj & _)]; cbv zeta in K; rewrite K; [reflexivity|].
  assert (j < length l)%nat by (apply nth_error_Some; congruence). destruct j as [|[|j]]; [reflexivity|reflexivity|lia].
Qed.
Print Assumptions C85_single.

(** The reference point is subtracted from single coordinates: two discs around (10,0), the point (7,0) outside both. *)
Definition drifting : mm_class := CSinus true 1 0 0 0.
Lemma disc_vel r cls (pos x : Pt) i v : x <> pos -> rot_vel (MM cls pos 0 0 0) = 0 -> lin_vel (MM cls pos 0 0 0) = Vel i v ->
  vel_intertial_frame (e_mm (disc r cls pos)) (0, 0) x = Ret v.
Proof.
  intros N RV LV. unfold vel_intertial_frame, reference_direction. cbn [disc e_mm transform frame_eqb m_rot m_pos]. rewrite RV, LV, affine_forward. cbn [bind].
  replace (place 0 pos (0, 0)) with pos by (unfold place, rotv; rewrite cos_0, sin_0; destruct pos; unv; f_equal; ring).
  change (np_norm (psub x pos)) with (dist x pos). destruct (Reqb_spec (dist x pos) 0) as [Z|Z]; [apply dist_zero in Z; contradiction|].
  cbn [bind]. f_equal. destruct v. apply pair_eq; nR; cbn [fst snd]; ring.
Qed.
Theorem C85_order_refuted : exists (E1 E2 : ellipse) (xr x : Pt), let c := cb_new [ellipse_member E1; ellipse_member E2] None xr in let e := probe xr x in
  x <> xr /\ cb_point_location c xr = Ret (-1) /\
  (exists p q, e_line_intersection E1 xr e GLOBAL GLOBAL = Ret [p] /\ e_line_intersection E2 xr e GLOBAL GLOBAL = Ret [q] /\ dist p xr < dist q xr /\
     cb_boundary_mapping c x = Ret (Some q)) /\
  vel_intertial_frame (e_mm E1) (e_xr E1) x = Ret (0, 0) /\ vel_intertial_frame (e_mm E2) (e_xr E2) x = Ret (1, 0) /\ cb_vel c x = Ret (0, 0).
Proof.
  exists (disc 1 CStatic (10, 0)), (disc 2 drifting (10, 0)), (10, 0), (7, 0). cbv zeta.
  assert (NX : ((7, 0) : Pt) <> (10, 0)) by (intros Q; injection Q; lra). split; [exact NX|].
  assert (PE : probe (10, 0) (7, 0) = vadd (-1 * 30, 0) (10, 0)) by (unfold probe; unv; f_equal; lra). rewrite PE.
  assert (L1 : e_line_intersection (disc 1 CStatic (10, 0)) (10, 0) (vadd (-1 * 30, 0) (10, 0)) GLOBAL GLOBAL = Ret [(9, 0)]).
  { rewrite disc_line by (try lra; right; reflexivity). destruct (Rle_dec 1 30); [|lra]. repeat f_equal. unv. f_equal; lra. }
  assert (L2 : e_line_intersection (disc 2 drifting (10, 0)) (10, 0) (vadd (-1 * 30, 0) (10, 0)) GLOBAL GLOBAL = Ret [(8, 0)]).
  { rewrite disc_line by (try lra; right; reflexivity). destruct (Rle_dec 2 30); [|lra]. repeat f_equal. unv. f_equal; lra. }
  assert (V1 : vel_intertial_frame (e_mm (disc 1 CStatic (10, 0))) (0, 0) (7, 0) = Ret (0, 0)) by (eapply disc_vel; [exact NX|reflexivity|reflexivity]).
  assert (V2 : vel_intertial_frame (e_mm (disc 2 drifting (10, 0))) (0, 0) (7, 0) = Ret (1, 0)).
  { eapply disc_vel; [exact NX|reflexivity|]. unfold lin_vel. cbn [m_class drifting m_t m_idx]. rewrite Rmult_0_l, cos_0. f_equal. apply pair_eq; ring. }
  assert (D1 : dist (9, 0) (10, 0) = 1) by (replace ((9, 0) : Pt) with (vadd (-1 * 1, 0) (10, 0)) by (unv; f_equal; lra); apply disc_dist; [lra|right; reflexivity]).
  assert (D2 : dist (8, 0) (10, 0) = 2) by (replace ((8, 0) : Pt) with (vadd (-1 * 2, 0) (10, 0)) by (unv; f_equal; lra); apply disc_dist; [lra|right; reflexivity]).
  split; [|split; [|split; [exact V1|split; [exact V2|]]]].
  - unfold cb_point_location. cbn [cb_new cb_members map_res ellipse_member mb_location].
    destruct (disc_location 1 CStatic (10, 0) (0, 0)) as (l1 & E1 & W & _); [lra|]. destruct (disc_location 2 drifting (10, 0) (0, 0)) as (l2 & E2 & _); [lra|].
    replace (vadd (0, 0) (10, 0)) with ((10, 0) : Pt) in E1, E2 by (unv; f_equal; ring). rewrite E1, E2. cbn [bind app existsb].
    destruct (Rltb_spec l1 0) as [|X]; [reflexivity|]. exfalso. apply (Rle_not_lt _ _ X), W. unfold norm2, dot. cbn [fst snd]. lra.
  - exists (9, 0), (8, 0). split; [exact L1|]. split; [exact L2|]. rewrite D1, D2. split; [lra|].
    unfold cb_boundary_mapping, cb_line_intersection. cbn [cb_new cb_xr cb_members cb_hull map_res ellipse_member mb_line_intersection].
    rewrite probe_eq, PE, L1, L2. cbn [bind hull_points concat app]. f_equal. f_equal.
    set (l := [(9, 0); (8, 0)] : list Pt). assert (NE : l <> []) by discriminate. destruct (argmax_far (10, 0) l NE) as [I M]. cbv zeta in I, M.
    set (b := nth (argmax (map (fun ip => np_norm (psub ip (10, 0))) l)) l (0, 0)) in *. change (b = (8, 0)).
    specialize (M (8, 0) (or_intror (or_introl eq_refl))). destruct I as [I|[I|[]]]; [|symmetry; exact I]. rewrite <- I, D1, D2 in M. lra.
  - unfold cb_vel, cb_line_intersection. cbn [cb_new cb_xr cb_members cb_hull map_res ellipse_member mb_line_intersection].
    rewrite probe_eq, PE, L1, L2. cbn [bind hull_points concat app]. cbv zeta. cbn [length].
    assert (C : forall u v, coordinate_dist (u, v) 0 = norm (u, v)).
    { intros u v. unfold coordinate_dist. cbn [fst snd]. change (norm (0 - u, 0 - v) = norm (u, v)). unfold norm, norm2, dot. cbn [fst snd]. f_equal. ring. }
    assert (K : forall u, 0 <= u <= 10 -> point_key (10, 0) (u, 0) = 10).
    { intros u U. unfold point_key. cbn [fst snd]. rewrite C. assert (T : norm (10, 0) = 10).
      { unfold norm, norm2, dot. cbn [fst snd]. replace (10 * 10 + 0 * 0) with (10 * 10) by ring. apply sqrt_square. lra. }
      rewrite T, (Rmax_right (coordinate_dist (10, 0) u) 10).
      - apply Rmax_left. lra.
      - unfold coordinate_dist. cbn [fst snd]. change (norm (u - 10, u - 0) <= 10). apply Rle_trans with (norm (10, 0)); [|lra]. apply sqrt_le_1_alt. unfold norm2, dot. cbn [fst snd].
        assert (0 <= u * (10 - u)) by (apply Rmult_le_pos; lra). lra. }
    cbn [best_index]. rewrite !K by lra. destruct (Rltb_spec (-1) 10) as [_|X]; [|lra]. destruct (Rltb_spec 10 10) as [X|_]; [lra|].
    cbn [Nat.leb nth_error ellipse_member mb_vel]. exact V1.
Qed.
Print Assumptions C85_order_refuted.

(** One member and a hull with the reference point on its border: three intersections, index 2 - 1 is out of range. *)
Definition needle : list Pt := [(0, 0); (5, -1); (5, 1)].
Theorem C85_hull_refuted : exists (E : ellipse) (g : hull_geom) (x : Pt), let c := cb_new [ellipse_member E] (Some g) (0, 0) in
  x <> (0, 0) /\ describes (hg_isect g (0, 0) (probe (0, 0) x)) (fun p => ring_border (hg_vertices g) p /\ on_seg (0, 0) (probe (0, 0) x) p) /\
  cb_point_location c (0, 0) = Ret (-1) /\ (exists v, mb_vel (ellipse_member E) x = Ret v) /\ cb_vel c x = Exn IndexErr.
Proof.
  set (g := HullGeom (fun _ => false) (fun _ => false) (fun _ _ => GMultiPoint [(0, 0); (5, 0)]) needle).
  exists (disc 1 CStatic (0, 0)), g, (1, 0). cbv zeta. assert (NX : ((1, 0) : Pt) <> (0, 0)) by (intros Q; injection Q; lra). split; [exact NX|].
  assert (PE : probe (0, 0) (1, 0) = vadd (1 * 10, 0) (0, 0)) by (unfold probe; unv; f_equal; lra). rewrite PE. split; [|split; [|split]].
  - cbn [g hg_isect describes hg_vertices]. split; [cbn; lia|]. split.
    { constructor; [intros [Q|[]]; injection Q; lra|constructor; [intros []|constructor]]. }
    intros p. unfold ring_border, needle. cbn [cyc_edges app combine In]. split.
    + intros [(e & Ie & S) (t & T & Q)]. assert (Y : snd p = 0) by (rewrite Q; unv; lra). clear t T Q.
      destruct Ie as [<-|[<-|[<-|[]]]]; destruct S as (t & T & Q); cbn [fst snd] in Q; unfold along, vadd, smul, vsub in Q; cbn [fst snd] in Q;
        rewrite Q in Y; cbn [fst snd] in Y.
      * left. rewrite Q. apply pair_eq; lra.
      * right. left. rewrite Q. apply pair_eq; lra.
      * left. rewrite Q. apply pair_eq; lra.
    + intros [<-|[<-|[]]].
      * split; [|exists 0; split; [lra|unv; apply pair_eq; lra]]. exists ((0, 0), (5, -1)). split; [tauto|]. exists 0. split; [lra|]. unv. apply pair_eq; lra.
      * split; [|exists (1 / 2); split; [lra|unv; apply pair_eq; lra]]. exists ((5, -1), (5, 1)). split; [tauto|]. exists (1 / 2). split; [lra|]. unv. apply pair_eq; lra.
  - unfold cb_point_location. cbn [cb_new cb_members map_res ellipse_member mb_location].
    destruct (disc_location 1 CStatic (0, 0) (0, 0)) as (l1 & E1 & W & _); [lra|].
    replace (vadd (0, 0) (0, 0)) with ((0, 0) : Pt) in E1 by (unv; f_equal; ring). rewrite E1. cbn [bind app existsb].
    destruct (Rltb_spec l1 0) as [|X]; [reflexivity|]. exfalso. apply (Rle_not_lt _ _ X), W. unfold norm2, dot. cbn [fst snd]. lra.
  - exists (0, 0). cbn [ellipse_member mb_vel]. eapply disc_vel; [exact NX|reflexivity|reflexivity].
  - unfold cb_vel, cb_line_intersection. cbn [cb_new cb_xr cb_members cb_hull map_res ellipse_member mb_line_intersection].
    rewrite probe_eq, PE, disc_line by (try lra; left; reflexivity). destruct (Rle_dec 1 10); [|lra].
    cbn [bind hull_points g hg_isect concat app]. cbv zeta. cbn [length best_index]. rewrite !key_origin.
    cbn [vadd fst snd]. assert (S2 : 0 < sqrt 2) by (apply sqrt_lt_R0; lra).
    replace (1 * 1 + 0) with 1 by lra. replace (0 + 0) with 0 by lra. rewrite Rabs_R0, (Rabs_right 1), (Rabs_right 5), (Rmax_left 1 0), (Rmax_left 5 0), (Rmax_left 0 0) by lra.
    destruct (Rltb_spec (-1) (sqrt 2 * 1)) as [_|X]; [|lra]. destruct (Rltb_spec (sqrt 2 * 1) (sqrt 2 * 0)) as [X|_]; [lra|].
    destruct (Rltb_spec (sqrt 2 * 1) (sqrt 2 * 5)) as [_|X]; [|lra]. reflexivity.
Qed.
Print Assumptions C85_hull_refuted.
Example C85_example : let c := cb_new [ellipse_member (disc 1 CStatic (0, 0)); ellipse_member (disc 2 drifting (0, 0))] None (0, 0) in let x := ((3, 0) : Pt) in
  let e := probe (cb_xr c) x in
  hull_points (cb_hull c) (cb_xr c) e = Some [] /\ Forall2 (fun o p => mb_line_intersection o (cb_xr c) e = Ret [p]) (cb_members c) [(1, 0); (2, 0)] /\
  Forall (on_seg (cb_xr c) e) [(1, 0); (2, 0)] /\ cb_members c <> [] /\ x <> (0, 0).
Proof.
  cbv zeta. cbn [cb_new cb_xr cb_members cb_hull].
  assert (PE : probe (0, 0) (3, 0) = vadd (1 * 30, 0) (0, 0)) by (unfold probe; unv; f_equal; lra). rewrite PE.
  split; [reflexivity|]. split; [|split; [|split; [discriminate|intros Q; injection Q; lra]]].
  - constructor; [|constructor; [|constructor]]; cbn [ellipse_member mb_line_intersection]; rewrite disc_line by (try lra; left; reflexivity);
      (destruct Rle_dec; [|lra]); repeat f_equal; unv; f_equal; lra.
  - constructor; [|constructor; [|constructor]]; [exists (1 / 30)|exists (2 / 30)]; (split; [lra|]); unv; f_equal; lra.
Qed.
