(** Property C138: StarshapedPrimitiveCombination of polygons: what C58, C60, C85 and C86 say when the members are Polygon and StarshapedPolygon objects. *)
From Coq Require Import Reals List Bool Arith ZArith Lra Lia.
From Verif Require Import Num M_Cg M_ConePolygon M_Motion M_Obstacle M_Ellipse M_Polygon M_StarPolygon M_Combination
  Spec L_Geom L_Cg L_Obstacle L_Ellipse P_Ellipse L_Polygon L_StarPolygon P_Polygon P_StarPolygon P_Combination P_CombBoundary P_CombNormal P_StarHull L_Hull P_Kernel.
Import ListNotations.
Local Open Scope R_scope.

(** a polygon in its own frame: the shapely predicates the code asks, its motion model, its vertices, its interior and its border *)
Record pol : Type := Pol { pl_contains : Pt -> bool; pl_exterior : Pt -> bool; pl_isect : Pt -> Pt -> geom; pl_mm : option mm; pl_vertices : list Pt; pl_inside : region; pl_ring : region }.
(** shapely answers about interior and border *)
Definition answers (q : pol) : Prop :=
  pl_vertices q <> [] /\ (forall y, pl_contains q y = true <-> pl_inside q y) /\ (forall y, pl_exterior q y = true <-> pl_ring q y) /\
  (forall y, pl_inside q y -> strictly_in_box (pl_vertices q) y) /\ (forall y, pl_ring q y -> ~ pl_inside q y).
(** shapely answers where the segment from a to b of the global frame meets the border; not a mixture of points and lines *)
Definition answers_on (a b : Pt) (q : pol) : Prop := forall a' b', a = shown (pl_mm q) GLOBAL a' -> b = shown (pl_mm q) GLOBAL b' ->
  describes (pl_isect q a' b') (fun p => pl_ring q p /\ on_seg a' b' p) /\ forall ps ll, pl_isect q a' b' <> GOther ps ll.
(** a Polygon or a StarshapedPolygon of this shape *)
Definition polygon_of (q : pol) (o : member) : Prop :=
  o = polygon_member (pl_contains q) (pl_exterior q) (pl_isect q) (pl_mm q) (pl_vertices q) \/
  exists nearest s, s_mm s = pl_mm q /\ o = star_polygon_member (pl_contains q) (pl_exterior q) (pl_isect q) nearest (pl_vertices q) s.
(** the region where the motion model puts it *)
Definition placed (q : pol) (A : region) : region := fun x => exists z, x = shown (pl_mm q) GLOBAL z /\ A z.
(** the border points that are found: those strictly within the bounding box (C53) *)
Definition found_ring (q : pol) : region := fun z => pl_ring q z /\ strictly_in_box (pl_vertices q) z.

Lemma placed_iff q A z : placed q A (shown (pl_mm q) GLOBAL z) <-> A z.
Proof. split; [|intros H; exists z; auto]. intros (z' & E & H). apply shown_inj in E; [|left; reflexivity]. subst z'. exact H. Qed.
Lemma polygon_locates q o : answers q -> polygon_of q o -> locates (mb_location o) (placed q (pl_inside q)) (placed q (found_ring q)).
Proof.
  intros (NE & C & E & B & D) Ho x. destruct (shown_surj (pl_mm q) x) as (z & ->).
  destruct (C53_point_location_partial (pl_contains q) (pl_exterior q) (pl_inside q) (pl_ring q) (pl_mm q) (pl_vertices q) z GLOBAL) as (l & El & L1 & L2 & L3); auto; [left; reflexivity|]. fold (found_ring q z) in L2, L3.
  exists l. split; [destruct Ho as [->|(nearest & s & Es & ->)]; cbn [mb_location polygon_member star_polygon_member]; [exact El|rewrite Es; exact El]|].
  rewrite !placed_iff. assert (ND : ~ (pl_inside q z /\ found_ring q z)) by (intros (A & (R1 & _)); exact (D z R1 A)).
  destruct (Rtotal_order l 0) as [K|[K|K]].
  - assert (l <> 0 /\ l <> 1) as (N0 & N1) by lra. assert (NF : ~ found_ring q z) by (rewrite <- L2; exact N0). assert (I : pl_inside q z) by (apply Classical_Prop.NNPP; intros N; apply N1, L3; split; assumption).
    split; [tauto|]. split; [tauto|]. split; [lra|tauto].
  - assert (F : found_ring q z) by (apply L2; exact K). assert (~ pl_inside q z) by tauto. split; [split; [lra|tauto]|]. split; [tauto|]. split; [lra|tauto].
  - assert (l <> 0 /\ l <> -1) as (N0 & N1) by lra. assert (~ found_ring q z) by (rewrite <- L2; exact N0). assert (~ pl_inside q z) by (rewrite <- L1; exact N1).
    split; [split; [lra|tauto]|]. split; [tauto|]. tauto.
Qed.
Lemma seg_shown m a b z : on_seg (shown m GLOBAL a) (shown m GLOBAL b) (shown m GLOBAL z) <-> on_seg a b z.
Proof.
  split; intros (t & T & Q); exists t; (split; [exact T|]).
  - rewrite shown_along in Q. apply shown_inj in Q; [exact Q|left; reflexivity].
  - rewrite shown_along. congruence.
Qed.
Lemma dist_shown m a b : dist (shown m GLOBAL a) (shown m GLOBAL b) = dist a b.
Proof. destruct m as [m|]; [|reflexivity]. cbn [shown]. unfold place. rewrite <- (dist_rotv (m_rot m) a b). unfold dist. f_equal. destruct (rotv (m_rot m) a), (rotv (m_rot m) b). unfold vsub, vadd. cbn [fst snd]. apply pair_eq; ring. Qed.
Lemma polygon_reaches q o a b : answers_on a b q -> polygon_of q o -> member_reaches a b o (placed q (pl_ring q)).
Proof.
  intros A Ho. destruct (shown_surj (pl_mm q) a) as (a' & Ea). destruct (shown_surj (pl_mm q) b) as (b' & Eb). destruct (A a' b' Ea Eb) as (D & N). subst a b. clear A.
  assert (G : exists l, geom_points (pl_isect q a' b') = Ret l). { destruct (pl_isect q a' b') eqn:Q; cbn [geom_points]; eauto. exfalso. eapply N. reflexivity. }
  destruct G as (l & G). exists (map (shown (pl_mm q) GLOBAL) l). split.
  - assert (X : p_line_intersection (pl_isect q) (pl_mm q) (shown (pl_mm q) GLOBAL a') (shown (pl_mm q) GLOBAL b') GLOBAL GLOBAL = Ret (map (shown (pl_mm q) GLOBAL) l)).
    { assert (GG : good GLOBAL) by (left; reflexivity). unfold p_line_intersection. rewrite !from_shown by exact GG. cbn [bind]. rewrite G. cbn [bind]. rewrite map_res_frames by exact GG. f_equal. apply map_ext. intros p. apply to_frame_shown. exact GG. }
    destruct Ho as [->|(nearest & s & Es & ->)]; cbn [mb_line_intersection polygon_member star_polygon_member]; [exact X|rewrite Es; exact X].
  - destruct (describes_reaches a' _ _ _ D G) as (R1 & R2). split.
    + intros p I. apply in_map_iff in I as (z & <- & I). rewrite placed_iff, seg_shown. apply R1. exact I.
    + intros p ((z & -> & Hz) & S). rewrite seg_shown in S. destruct (R2 z (conj Hz S)) as (w & Iw & L). exists (shown (pl_mm q) GLOBAL w). split; [apply in_map; exact Iw|]. rewrite !dist_shown. exact L.
Qed.

(** point_location of a combination of polygons: -1 in the interior of a member or of the hull, 0 on a border that is found, else 1 *)
Theorem C138_location : forall (c : comb) (qs : list pol) (A0 B0 : region) (x : Pt),
  Forall2 (fun o q => answers q /\ polygon_of q o) (cb_members c) qs -> hull_locates (cb_hull c) A0 B0 ->
  exists l, cb_point_location c x = Ret l /\
    (l = -1 <-> A0 x \/ exists q, In q qs /\ placed q (pl_inside q) x) /\
    (l = 1 <-> ~ A0 x /\ ~ B0 x /\ forall q, In q qs -> ~ placed q (pl_inside q) x /\ ~ placed q (found_ring q) x) /\ (l = -1 \/ l = 0 \/ l = 1).
Proof.
  intros c qs A0 B0 x F H0. set (As := map (fun q => placed q (pl_inside q)) qs). set (Bs := map (fun q => placed q (found_ring q)) qs).
  destruct (C58_point_location c As Bs A0 B0 x) as (l & El & L1 & L2 & L3); [unfold As, Bs; rewrite !map_length; reflexivity| |exact H0|].
  { unfold As, Bs. clear - F. induction F as [|o q ms qs (A & P) F IH]; cbn [map combine]; constructor; [apply polygon_locates; assumption|exact IH]. }
  exists l. split; [exact El|]. split; [|split].
  - rewrite L1. split.
    + intros (A & [<-|I] & H); [left; exact H|]. unfold As in I. apply in_map_iff in I as (q & <- & I). right. exists q. auto.
    + intros [H|(q & I & H)]; [exists A0; split; [left; reflexivity|exact H]|]. exists (placed q (pl_inside q)). split; [right; unfold As; apply in_map_iff; exists q; auto|exact H].
  - rewrite L3. split.
    + intros H. split; [apply H; left; reflexivity|]. split; [apply H; right; left; reflexivity|]. intros q I. split; apply H; right; right; apply in_or_app; [left|right]; apply in_map_iff; exists q; auto.
    + intros (N1 & N2 & N3) S [<-|[<-|I]]; auto. apply in_app_or in I as [I|I]; apply in_map_iff in I as (q & <- & I); apply (N3 q I).
  - unfold cb_point_location in El. destruct (map_res _ _) as [ls|]; cbn [bind] in El; [|discriminate]. destruct (existsb _ _); [injection El; auto|]. destruct (existsb _ _); injection El; auto.
Qed.
Print Assumptions C138_location.

(** boundary_mapping of a combination of polygons: the border point on the probe that is farthest from the reference point *)
Theorem C138_boundary : forall (c : comb) (qs : list pol) (x : Pt), let xr := cb_xr c in let e := probe xr x in cb_hull c = None ->
  Forall2 (fun o q => answers_on xr e q /\ polygon_of q o) (cb_members c) qs ->
  exists ob, cb_boundary_mapping c x = Ret ob /\
    match ob with
    | None => forall q p, In q qs -> placed q (pl_ring q) p -> ~ on_seg xr e p
    | Some b => on_seg xr e b /\ (exists q, In q qs /\ placed q (pl_ring q) b) /\ forall q p, In q qs -> placed q (pl_ring q) p -> on_seg xr e p -> dist p xr <= dist b xr
    end.
Proof.
  intros c qs x xr e H0 F. destruct (C60_boundary_mapping_partial c (map (fun q => placed q (pl_ring q)) qs) (fun _ => False) x) as (ob & E & H).
  { clear - F. fold xr e. induction F as [|o q ms qs (A & P) F IH]; cbn [map]; constructor; [apply polygon_reaches; assumption|exact IH]. }
  { rewrite H0. intros p []. }
  fold xr e in H. exists ob. split; [exact E|]. destruct ob as [b|].
  - destruct H as (S & (B & [<-|I] & Bb) & M); [contradiction|]. apply in_map_iff in I as (q & <- & I). split; [exact S|]. split; [exists q; auto|]. intros q' p Iq P Sp. apply (M (placed q' (pl_ring q')) p); auto. right. apply in_map_iff. exists q'. auto.
  - intros q p I P. apply (H (placed q (pl_ring q)) p); auto. right. apply in_map_iff. exists q. auto.
Qed.
Print Assumptions C138_boundary.

Lemma sub_index_one o xr x l : mb_line_intersection o xr (probe xr x) = Ret l -> sub_index (cb_new [o] None xr) x = Ret 0%nat.
Proof.
  intros E. destruct (C86_sub_index (cb_new [o] None xr) x [l]) as (k & Ek & H); [cbn [cb_new cb_members cb_xr map_res]; rewrite E; reflexivity|]. rewrite Ek. f_equal. cbn [cb_new cb_hull M_Combination.hull_points app] in H.
  destruct H as [(-> & _)|(p & (l' & Nk & Ip) & _)]; [reflexivity|]. destruct k as [|[|k]]; [reflexivity| |]; cbn in Nk; [injection Nk as <-; destruct Ip|destruct k; discriminate].
Qed.
(** a combination of one StarshapedPolygon made by its constructor and set_xr: its sub_normal is the outward unit normal of the facing edge, and (at most two crossings of the probe) its velocity that of the obstacle *)
Theorem C138_one_star : forall nearest argsort nearest' argsort' (q : pol) s (z xr : Pt), let m := pl_mm q in let x := shown m GLOBAL z in
  let o := star_polygon_member (pl_contains q) (pl_exterior q) (pl_isect q) nearest (pl_vertices q) s in let c := cb_new [o] None xr in
  (forall l, sorts l (argsort l)) -> pl_vertices q <> [] -> history argsort m (pl_vertices q) s -> (forall p, In p (pl_vertices q) -> p <> s_xr s) -> z <> s_xr s -> answers_on xr (probe xr x) q ->
  ((forall a b, (length (match geom_points (pl_isect q a b) with Ret l => l | _ => [] end) <= 2)%nat) -> cb_vel c x = vel_intertial_frame m (s_xr s) x) /\
  exists u w, In (u, w) (cyc_edges (s_vertices s)) /\ faces (s_xr s) u w z (pl_vertices q) /\
    (u <> w -> exists n, cb_normal argsort' nearest' c x SubNormal = Ret (Some n) /\ norm n = 1 /\ dot n (vsub (shown m GLOBAL w) (shown m GLOBAL u)) = 0 /\
       (0 < area2 (s_xr s) u w -> 0 < dot n (vsub (shown m GLOBAL u) (shown m GLOBAL (s_xr s))))).
Proof.
  intros nearest argsort nearest' argsort' q s z xr m x o c SA NE H NV NX AO. assert (GG : good GLOBAL) by (left; reflexivity).
  assert (Es : s_mm s = pl_mm q). { clear - H. fold m. induction H as [xr|s z fi s' H IH G E]; [reflexivity|]. unfold sp_set_xr in E. destruct (transform _ _ _ _); cbn [bind] in E; [|discriminate]. injection E as <-. exact IH. }
  assert (P : polygon_of q o) by (right; exists nearest, s; auto). destruct (polygon_reaches q o xr (probe xr x) AO P) as (l & El & _). split.
  - intros L2. rewrite (C85_single c o x l); [cbn [mb_vel o star_polygon_member]; rewrite Es; reflexivity|reflexivity| |].
    + unfold cb_line_intersection. cbn [c cb_new cb_members cb_xr cb_hull map_res M_Combination.hull_points]. rewrite El. cbn [bind concat app M_Combination.hull_points]. rewrite !app_nil_r. reflexivity.
    + revert El. unfold o. cbn [mb_line_intersection star_polygon_member]. unfold p_line_intersection. destruct (transform _ xr _ _) as [a|]; cbn [bind]; [|discriminate]. destruct (transform _ (probe xr x) _ _) as [b|]; cbn [bind]; [|discriminate].
      specialize (L2 a b). destruct (geom_points (pl_isect q a b)) as [l0|]; cbn [bind]; [|discriminate]. rewrite map_res_frames by exact GG. intros E. injection E as <-. rewrite map_length. exact L2.
  - destruct (C55_normal nearest argsort m (pl_vertices q) s z GLOBAL GLOBAL SA NE H NV NX GG GG) as (u & w & I & Fc & _ & N). exists u, w. split; [exact I|]. split; [exact Fc|]. intros D. destruct (N D) as (n & En & N1 & N2 & _ & N3). exists n.
    split; [|split; [exact N1|split; [exact N2|intros A; apply N3; exact A]]].
    destruct (C86_sub_normal argsort' nearest' c x 0) as (X & _); [apply (sub_index_one o xr x l El)|]. rewrite (X o eq_refl). unfold o. cbn [mb_normal star_polygon_member]. unfold x. rewrite En. reflexivity.
Qed.
Print Assumptions C138_one_star.
(** of a combination of one Polygon, neither velocity nor sub_normal can be had *)
Theorem C138_one_polygon : forall nearest argsort (q : pol) (x xr : Pt), answers_on xr (probe xr x) q ->
  (forall a b, (length (match geom_points (pl_isect q a b) with Ret l => l | _ => [] end) <= 2)%nat) ->
  let c := cb_new [polygon_member (pl_contains q) (pl_exterior q) (pl_isect q) (pl_mm q) (pl_vertices q)] None xr in
  cb_vel c x = Exn AttributeErr /\ cb_normal argsort nearest c x SubNormal = Exn AttributeErr.
Proof.
  intros nearest argsort q x xr AO L2 c. set (o := polygon_member (pl_contains q) (pl_exterior q) (pl_isect q) (pl_mm q) (pl_vertices q)) in *. assert (GG : good GLOBAL) by (left; reflexivity).
  assert (P : polygon_of q o) by (left; reflexivity). destruct (polygon_reaches q o xr (probe xr x) AO P) as (l & El & _). split.
  - rewrite (C85_single c o x l); [reflexivity|reflexivity| |].
    + unfold cb_line_intersection. cbn [c cb_new cb_members cb_xr cb_hull map_res M_Combination.hull_points]. rewrite El. cbn [bind concat app M_Combination.hull_points]. rewrite !app_nil_r. reflexivity.
    + revert El. unfold o. cbn [mb_line_intersection polygon_member]. unfold p_line_intersection. destruct (transform _ xr _ _) as [a|]; cbn [bind]; [|discriminate]. destruct (transform _ (probe xr x) _ _) as [b|]; cbn [bind]; [|discriminate].
      specialize (L2 a b). destruct (geom_points (pl_isect q a b)) as [l0|]; cbn [bind]; [|discriminate]. rewrite map_res_frames by exact GG. intros E. injection E as <-. rewrite map_length. exact L2.
  - destruct (C86_sub_normal argsort nearest c x 0) as (X & _); [apply (sub_index_one o xr x l El)|]. rewrite (X o eq_refl). reflexivity.
Qed.
Print Assumptions C138_one_polygon.
(** seen from the point x of the global frame the polygon lies strictly beyond a line and has some width *)
Definition seen_from (x : Pt) (q : pol) : Prop := exists z n, x = shown (pl_mm q) GLOBAL z /\ (forall p, In p (pl_vertices q) -> 0 < dot n (vsub p z)) /\
  exists p p', In p (pl_vertices q) /\ In p' (pl_vertices q) /\ area2 z p p' <> 0.
Lemma area2_shown m a b d : area2 (shown m GLOBAL a) (shown m GLOBAL b) (shown m GLOBAL d) = area2 a b d.
Proof. destruct m as [m|]; [|reflexivity]. apply area2_place. Qed.
Lemma polygon_pair q o x : polygon_of q o -> seen_from x q -> exists t1 t2, mb_tangent_points o x = Ret [t1; t2] /\ tangent_pair (placed q (in_hull (pl_vertices q))) x t1 t2.
Proof.
  intros Ho (z & n & -> & B & (p & p' & Ip & Ip' & A)). assert (GG : good GLOBAL) by (left; reflexivity).
  destruct (C50_tangent_points (pl_mm q) (pl_vertices q) z GLOBAL GLOBAL n GG GG) as (t1 & t2 & E & I1 & I2 & H & W); [intros Z; rewrite Z in Ip; destruct Ip|exact B|]. exists (shown (pl_mm q) GLOBAL t1), (shown (pl_mm q) GLOBAL t2).
  split; [destruct Ho as [->|(nearest & s & Es & ->)]; cbn [mb_tangent_points polygon_member star_polygon_member]; [exact E|rewrite Es; exact E]|].
  split; [apply placed_iff, L_Hull.in_hull_mem; exact I1|]. split; [apply placed_iff, L_Hull.in_hull_mem; exact I2|]. split; [rewrite area2_shown; exact (W p p' Ip Ip' A)|]. intros y (w & -> & Hw). rewrite !area2_shown. apply H. exact Hw.
Qed.
(** tangent_points of a combination of polygons: if two points come back they are a tangent pair of the union of the convex hulls of the members where their poses put them *)
Theorem C138_tangents : forall (c : comb) (qs : list pol) (x : Pt) (l : list Pt), Forall2 (fun o q => seen_from x q /\ polygon_of q o) (cb_members c) qs -> (length qs <= 128)%nat -> cb_tangent_points c x = Ret l ->
  (length l <= 2)%nat /\ forall p r, l = [p; r] -> let U := union (map (fun q => placed q (in_hull (pl_vertices q))) qs) in tangent_pair U x p r \/ tangent_pair U x r p.
Proof.
  intros c qs x l F L E. assert (T : exists tps, Forall2 (fun o t => mb_tangent_points o x = Ret [fst t; snd t]) (cb_members c) tps /\ Forall2 (fun A t => tangent_pair A x (fst t) (snd t)) (map (fun q => placed q (in_hull (pl_vertices q))) qs) tps).
  { clear - F. induction F as [|o q ms qs (A & P) F (tps & F1 & F2)]; [exists []; split; constructor|]. destruct (polygon_pair q o x P A) as (t1 & t2 & E1 & E2). exists ((t1, t2) :: tps). cbn [map]. split; constructor; assumption. }
  destruct T as (tps & F1 & F2). assert (Lt : length tps = length qs) by (clear - F2; remember (map (fun q => placed q (in_hull (pl_vertices q))) qs) as rs eqn:Er; rewrite <- (map_length (fun q => placed q (in_hull (pl_vertices q))) qs), <- Er; clear Er; induction F2; cbn [length]; congruence). apply (C59_union_partial c x _ tps l F1 F2); [lia|exact E].
Qed.
Print Assumptions C138_tangents.
(** of a single member: its own tangent points, unless they are in line with x up to 1e-10 *)
Theorem C138_one_tangents : forall (o : member) (q : pol) hull xr (x : Pt), polygon_of q o -> seen_from x q ->
  exists t1 t2, tangent_pair (placed q (in_hull (pl_vertices q))) x t1 t2 /\ (area2 x t1 t2 < - / 10 ^ 10 -> cb_tangent_points (cb_new [o] hull xr) x = Ret [t1; t2]).
Proof.
  intros o q hull xr x P A. destruct (polygon_pair q o x P A) as (t1 & t2 & E & T). exists t1, t2. split; [exact T|]. intros L. apply C59_one_member; [exact E|]. unfold TH; lra.
Qed.
Print Assumptions C138_one_tangents.
(** *** a square of side 2 at (5, 0), as a Polygon and as a StarshapedPolygon, seen from its centre towards (7, 0) *)
Definition sq_in (p : Pt) : Prop := -1 < fst p < 1 /\ -1 < snd p < 1.
Definition sq_ring (p : Pt) : Prop := -1 <= fst p <= 1 /\ -1 <= snd p <= 1 /\ ~ sq_in p.
Definition sq_inb (p : Pt) : bool := Rltb (-1) (fst p) && Rltb (fst p) 1 && (Rltb (-1) (snd p) && Rltb (snd p) 1).
Definition sq_ringb (p : Pt) : bool := Rleb (-1) (fst p) && Rleb (fst p) 1 && (Rleb (-1) (snd p) && Rleb (snd p) 1) && negb (sq_inb p).
Definition sq : pol := Pol sq_inb sq_ringb (fun _ _ => GPoint (1, 0)) (Some (static_new (Some (5, 0)) 0)) [(1, 1); (-1, 1); (-1, -1); (1, -1)] sq_in sq_ring.
Lemma sq_inb_iff p : sq_inb p = true <-> sq_in p.
Proof.
  unfold sq_inb, sq_in. destruct (Rltb_spec (-1) (fst p)), (Rltb_spec (fst p) 1), (Rltb_spec (-1) (snd p)), (Rltb_spec (snd p) 1); cbn [andb]; (split; [try discriminate; lra|try reflexivity; lra]).
Qed.
Lemma sq_shown z : shown (pl_mm sq) GLOBAL z = (fst z + 5, snd z).
Proof. unfold sq, static_new. cbn [pl_mm shown m_rot m_pos]. unfold place, rotv, vadd. rewrite cos_0, sin_0. cbn [fst snd]. apply pair_eq; ring. Qed.
Lemma sq_answers : answers sq.
Proof.
  split; [discriminate|]. split; [exact sq_inb_iff|]. split; [|split].
  - intros y. cbn [pl_exterior pl_ring sq]. unfold sq_ringb, sq_ring. pose proof (sq_inb_iff y) as I.
    destruct (Rleb_spec (-1) (fst y)), (Rleb_spec (fst y) 1), (Rleb_spec (-1) (snd y)), (Rleb_spec (snd y) 1); cbn [andb]; try (split; [discriminate|intros (A & B & _); lra]).
    destruct (sq_inb y); cbn [negb]; [split; [discriminate|tauto]|]. split; [|reflexivity]. intros _. split; [lra|]. split; [lra|]. intros C. apply I in C. discriminate.
  - intros y (A & B). cbn [sq pl_vertices]. repeat split; [exists (-1, 1)|exists (1, 1)|exists (-1, -1)|exists (1, 1)]; cbn [In fst snd]; (split; [tauto|lra]).
  - intros y (_ & _ & N). exact N.
Qed.
Lemma sq_answers_on : answers_on (5, 0) (probe (5, 0) (7, 0)) sq.
Proof.
  intros (a1, a2) (b1, b2). rewrite !sq_shown. unfold probe, vadd, smul, vsub. cbn [fst snd]. intros Ea Eb. injection Ea as A1 A2. injection Eb as B1 B2. split; [|discriminate].
  assert (a1 = 0) by lra. assert (a2 = 0) by lra. assert (b1 = 20) by lra. assert (b2 = 0) by lra. subst. cbn [sq pl_isect describes pl_ring]. intros (x, y). split.
  - intros ((X & Y & N) & (t & T & E)). unfold along, vadd, smul, vsub in E. cbn [fst snd] in *. injection E as Ex Ey. unfold sq_in in N. cbn [fst snd] in N. destruct (Rlt_dec x 1) as [L|G]; [exfalso; apply N; lra|]. apply pair_eq; lra.
  - intros E. injection E as -> ->. split; [split; [cbn; lra|split; [cbn; lra|intros (C & _); cbn in C; lra]]|]. exists (1 / 20). split; [lra|]. unfold along, vadd, smul, vsub. cbn [fst snd]. apply pair_eq; lra.
Qed.
Example C138_example : forall nearest argsort, let s := sp_new argsort (pl_mm sq) (pl_vertices sq) (0, 0) in
  let o1 := polygon_member (pl_contains sq) (pl_exterior sq) (pl_isect sq) (pl_mm sq) (pl_vertices sq) in
  let o2 := star_polygon_member (pl_contains sq) (pl_exterior sq) (pl_isect sq) nearest (pl_vertices sq) s in let c := cb_new [o1; o2] None (5, 0) in
  history argsort (pl_mm sq) (pl_vertices sq) s /\ (forall p, In p (pl_vertices sq) -> p <> s_xr s) /\ answers_on (5, 0) (probe (5, 0) (7, 0)) sq /\
  Forall2 (fun o q => answers q /\ polygon_of q o) (cb_members c) [sq; sq] /\
  cb_point_location c (11 / 2, 0) = Ret (-1) /\ cb_point_location c (7, 0) = Ret 1 /\ cb_boundary_mapping c (7, 0) = Ret (Some (6, 0)).
Proof.
  intros nearest argsort s o1 o2 c. assert (F : forall P, (P sq : Prop) -> Forall2 (fun o q => P q /\ polygon_of q o) (cb_members c) [sq; sq]).
  { intros P H. apply Forall2_cons; [split; [exact H|left; reflexivity]|]. apply Forall2_cons; [split; [exact H|right; exists nearest, s; split; reflexivity]|]. apply Forall2_nil. }
  split; [constructor|]. split; [intros p I; cbn in I; destruct I as [<-|[<-|[<-|[<-|[]]]]]; intros E; injection E; lra|]. split; [exact sq_answers_on|]. split; [apply F, sq_answers|].
  assert (IN : forall A x y, placed sq A (x + 5, y) <-> A (x, y)). { intros A x y. rewrite <- (placed_iff sq A (x, y)), sq_shown. reflexivity. }
  assert (HL : hull_locates (cb_hull c) (fun _ => False) (fun _ => False)) by (intros p; cbn; tauto).
  split; [|split].
  - destruct (C138_location c [sq; sq] _ _ (11 / 2, 0) (F _ sq_answers) HL) as (l & -> & L & _). f_equal. apply L. right. exists sq. split; [left; reflexivity|]. replace (11 / 2) with (1 / 2 + 5) by lra. apply IN. cbn. unfold sq_in. cbn. lra.
  - destruct (C138_location c [sq; sq] _ _ (7, 0) (F _ sq_answers) HL) as (l & -> & _ & L & _). f_equal. apply L. split; [tauto|]. split; [tauto|]. intros q I. assert (q = sq) as -> by (destruct I as [<-|[<-|[]]]; reflexivity).
    replace 7 with (2 + 5) by lra. rewrite !IN. unfold found_ring. cbn [sq pl_inside pl_ring]. unfold sq_in, sq_ring. cbn [fst snd]. split; [intros (C & _)|intros ((C & _) & _)]; lra.
  - destruct (C138_boundary c [sq; sq] (7, 0) eq_refl (F (answers_on (5, 0) (probe (5, 0) (7, 0))) sq_answers_on)) as (ob & -> & H). cbn [c cb_new cb_xr] in H. f_equal.
    assert (S6 : on_seg (5, 0) (probe (5, 0) (7, 0)) (6, 0)). { exists (1 / 20). split; [lra|]. unfold probe, along, vadd, smul, vsub. cbn [fst snd]. apply pair_eq; lra. }
    assert (P6 : placed sq (pl_ring sq) (6, 0)). { replace 6 with (1 + 5) by lra. apply IN. cbn [sq pl_ring]. unfold sq_ring, sq_in. cbn [fst snd]. lra. }
    destruct ob as [b|]; [|exfalso; apply (H sq (6, 0)); [left; reflexivity|exact P6|exact S6]]. f_equal. destruct H as (Sb & (q & I & Pb) & _). assert (q = sq) as -> by (destruct I as [<-|[<-|[]]]; reflexivity).
    destruct Sb as (t & T & Eb). destruct Pb as ((z1, z2) & Ez & Hz). rewrite sq_shown in Ez. cbn [fst snd] in Ez. rewrite Ez in Eb |- *. unfold probe, along, vadd, smul, vsub in Eb. cbn [fst snd] in Eb. injection Eb as E1 E2.
    cbn [sq pl_ring] in Hz. unfold sq_ring, sq_in in Hz. cbn [fst snd] in Hz. destruct Hz as (X & Y & N). destruct (Rlt_dec z1 1) as [L|G]; [exfalso; apply N; lra|]. apply pair_eq; lra.
Qed.
Example C138_tangents_example : seen_from (0, 0) sq.
Proof.
  exists (-5, 0), (1, 0). rewrite sq_shown. cbn [fst snd]. split; [apply pair_eq; lra|]. split; [intros p I; cbn in I; destruct I as [<-|[<-|[<-|[<-|[]]]]]; unfold dot, vsub; cbn [fst snd]; lra|].
  exists (1, 1), (1, -1). cbn [sq pl_vertices In]. split; [tauto|]. split; [tauto|]. unfold area2, cross, vsub. cbn [fst snd]. lra.
Qed.
