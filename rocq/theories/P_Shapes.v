(** C102: the guarantee of C100 for convex polygons and ellipses with the modelled methods. *)
From Coq Require Import String Reals List Bool Arith ZArith Lia Lra Permutation.
From Verif Require Import Num Spec S_Guarantee S_ConeRegion M_Cg M_Hull M_Motion M_Obstacle M_Ellipse M_Polygon M_ConePolygon M_Clusters L_Clusters M_StarHull M_Starify M_Shapes
  L_Geom L_Hull L_Cg L_Cone L_Obstacle L_Ellipse P_Cone P_Hull P_Ellipse P_Polygon P_StarHull P_Starify P_StarifyResult P_ConeRegion P_Guarantee L_HullDisjoint P_GuaranteeConvex.
Import ListNotations.
Open Scope R_scope.

(** a convex ring without superfluous vertices *)
Definition strict_ring (h : list Pt) : Prop := (3 <= length h)%nat /\ NoDup h /\
  forall a b, In (a, b) (cyc_edges h) -> forall r, In r h -> r <> a -> r <> b -> 0 < area2 a b r.
Definition shape_body (s : shape) : region :=
  match s with PolygonShape m v => placed m GLOBAL (in_hull v) | EllipseShape E => body E GLOBAL end.
(** every corner turns by more than the tolerance; positive half axes *)
Definition solid (s : shape) : Prop :=
  match s with
  | PolygonShape m v => strict_ring v /\ forall i, (i < length v)%nat -> TH < turn v i
  | EllipseShape E => 0 < fst (e_a E) /\ 0 < snd (e_a E)
  end.
(** a point from which the tangents are determined: inside a polygon or beyond an edge; for an ellipse the conditions of C43 *)
Definition sees (s : shape) (p : Pt) : Prop :=
  match s with
  | PolygonShape m v => exists z, p = shown m GLOBAL z /\
      ((in_hull v z /\ forall a b, In (a, b) (cyc_edges v) -> 0 < area2 a b z) \/ exists a b, In (a, b) (cyc_edges v) /\ area2 a b z < 0)
  | EllipseShape E => exists z, p = shown (e_mm E) GLOBAL z /\
      (1 < ell_form (e_a E) z -> (1 / 100000 <= Rabs (fst (e_a E) ^ 2 - fst z ^ 2) \/ fst z ^ 2 = fst (e_a E) ^ 2) /\
         (TH * ell_form (e_a E) z) ^ 2 < 4 * (fst (e_a E) * snd (e_a E)) ^ 2 * (ell_form (e_a E) z - 1) ^ 3)
  end.

Lemma strict_convex v : strict_ring v -> convex_ccw v.
Proof.
  intros (_ & _ & H) a b E r Hr. destruct (pt_eq_dec r a) as [->|Na]; [right; destruct a, b; unv; ring|]. destruct (pt_eq_dec r b) as [->|Nb]; [right; destruct a, b; unv; ring|]. left. apply (H a b E r Hr Na Nb).
Qed.
Lemma strict_solid v : strict_ring v -> exists p q r, In p v /\ In q v /\ In r v /\ area2 p q r <> 0.
Proof.
  intros (L & N & H). destruct v as [|a [|b [|c v]]]; cbn in L; try lia. exists a, b, c. split; [cbn; auto|]. split; [cbn; auto|]. split; [cbn; auto|].
  apply Rgt_not_eq, (H a b); [cbn; auto|cbn; auto| |]; intros ->; inversion N as [|? ? N1 N2]; subst; [apply N1; cbn; auto|]. inversion N2 as [|? ? N3 _]; subst. apply N3. cbn. auto.
Qed.
Lemma solid_convex s : solid s -> convex (shape_body s).
Proof.
  destruct s as [m v|E]; cbn; [intros _; apply placed_convex, in_hull_convex|]. intros [A B]. apply (placed_convex _ _ (in_ellipse (e_a E))), ellipse_convex; assumption.
Qed.
Lemma sees_tangents s p : solid s -> sees s p -> tangents_of (shape_tangents s) (shape_body s) p.
Proof.
  destruct s as [m v|E]; cbn [solid sees].
  - intros [S _] (z & -> & H). apply (C62_polygon_tangents m v z (strict_solid v S) (strict_convex v S) H).
  - intros [A B] (z & -> & H). apply (C62_ellipse_tangents E z A B H).
Qed.
Lemma solid_convexity s : solid s -> shape_convexity s = Ret true.
Proof.
  destruct s as [m v|E]; cbn [solid shape_convexity]; [|reflexivity]. intros [S T]. pose proof TH_pos as TP.
  assert (Ab : forall i, (i < length v)%nat -> Rabs (turn v i) = turn v i) by (intros i Hi; specialize (T i Hi); apply Rabs_pos_eq; lra).
  destruct (C52_convexity_partial v) as [A B]; [intros i Hi; rewrite (Ab i Hi); specialize (T i Hi); lra|].
  destruct (proj2 A) as [b Hb].
  - exists 0%nat. destruct S as (L & _). split; [lia|]. rewrite Ab by lia. specialize (T 0%nat ltac:(lia)). lra.
  - destruct (B b Hb) as (_ & C & _). rewrite Hb, (C (strict_convex v S)). reflexivity.
Qed.

Section Shapes.
  Context {G : Type} (M : methods item G) (Sh : shapely G) (setl : list nat -> list nat).
  Variables (den : G -> region) (ring : list Pt -> G) (unique : list Pt -> list Pt) (hull_rounds : nat).
  Variables (op : options item G) (x xg : Pt) (obs : list item).
  Notation call := (cluster_and_starify M Sh setl).

  (** what is assumed of shapely: regions of rings, intersections, unions and empty geometries *)
  Record sets : Prop := {
    st_intersection : forall g h p, den (sh_intersection Sh g h) p -> den g p /\ den h p;
    st_union : forall l p, den (sh_union Sh l) p <-> exists g, In g l /\ den g p;
    st_is_empty : forall g p, sh_is_empty Sh g = true -> ~ den g p;
    st_empty : forall p, ~ den (op_empty op) p;
    st_nothing : forall p, ~ den (ring []) p;
    st_convex : forall h p, strict_ring h -> (den (ring h) p <-> in_hull h p);
    st_fan : forall a l p, sweeps a l -> den (ring (a :: l)) p -> fan a l p }.
  Hypothesis setl_ok : set_order setl.
  Hypothesis symmetric : forall p q, sh_intersects Sh p q = sh_intersects Sh q p.
  Hypothesis unique_ok : forall l p, In p (unique l) <-> In p l.
  Hypothesis unique_short : forall l, (length (unique l) <= length l)%nat.
  Hypothesis rounds_ok : (9 <= hull_rounds)%nat.
  Hypothesis impl : implemented ring unique hull_rounds M Sh.
  Hypothesis shapely_ok : sets.
  Hypothesis ids : NoDup (map it_id obs).
  Hypothesis all_solid : forall o, In o obs -> solid (it_shape o).
  Hypothesis all_seen : forall o, In o obs -> sees (it_shape o) x /\ sees (it_shape o) xg.
  Hypothesis in_the_box : 0 < box_margin x /\ 0 < box_margin xg.
  Hypothesis directions : forall p d, p = x \/ p = xg -> In d (directions_at M p obs) -> usable p d.

  Notation bodies := (fun o => shape_body (it_shape o)).
  Lemma shapes_geometry : faithful_geometry M Sh den op x xg obs.
  Proof.
    split; [apply (st_intersection shapely_ok)|apply (st_union shapely_ok)|apply (st_is_empty shapely_ok)|apply (st_empty shapely_ok)|].
    intros c g p Ha H1 H2 Wf Ap E D N1 N2. destruct (im_cone _ _ _ _ _ impl c g E) as (vs & Ev & ->). rewrite Wf in Ev.
    assert (Bm : 0 < box_margin (apex c)) by (destruct Ha as [->| ->]; apply in_the_box).
    destruct (directions _ _ Ha H1) as [U1 V1]. destruct (directions _ _ Ha H2) as [U2 V2].
    destruct (C101_region_partial (apex c) (dir1 c) (dir2 c) Bm U1 U2 V1 V2 Ap) as (l & El & Sw & Fr). rewrite El in Ev. injection Ev as <-.
    apply (st_fan shapely_ok _ _ _ Sw) in D. apply (Fr p N1 N2) in D. apply D.
  Qed.
  Lemma shapes_obstacles : convex_obstacles M bodies x xg obs.
  Proof.
    split.
    - intros o Ho. pose proof (im_convex _ _ _ _ _ impl o true (solid_convexity _ (all_solid o Ho))) as C. split; [exact C|]. split; [apply (im_starshaped _ _ _ _ _ impl), C|apply solid_convex, all_solid, Ho].
    - rewrite (map_ext _ (fun o => Some (it_id o)) (im_id _ _ _ _ _ impl)), <- (map_map it_id Some). apply FinFun.Injective_map_NoDup; [intros a b E; congruence|exact ids].
    - intros o p Ho [->| ->]; rewrite (im_tangents _ _ _ _ _ impl); apply sees_tangents; auto; apply all_seen, Ho.
  Qed.
  Lemma tangents_two s k l : solid s -> sees s k -> shape_tangents s k = Ret l -> (length l <= 2)%nat.
  Proof. intros So Se E. destruct (sees_tangents s k So Se) as [[_ T]|(_ & t1 & t2 & T & _)]; rewrite E in T; injection T as ->; cbn; lia. Qed.
  Lemma shapes_hull o a b c : solid (it_shape o) -> (forall k, In k [a; b; c] -> sees (it_shape o) k) ->
    (forall pts, hull_points (shape_tangents (it_shape o)) [a; b; c] unique pts -> general_position pts) -> hull_right M den unique o a b c.
  Proof.
    intros So Se Gp g E. rewrite (im_hull _ _ _ _ _ impl) in E. rewrite (im_tangents _ _ _ _ _ impl). unfold shape_hull in E.
    set (tp := shape_tangents (it_shape o)) in *. unfold convex_kernel_starshaped_hull in E.
    assert (Tg : forall k, In k [a; b; c] -> tangents_of tp (shape_body (it_shape o)) k) by (intros k Hk; apply sees_tangents; auto).
    destruct (all_tangents tp (shape_body (it_shape o)) [a; b; c] Tg) as (tps & Et & _ & _ & _ & D). rewrite Et in E. cbn [bind] in E.
    set (pts := match tps with [] => [] | _ => unique tps ++ [a; b; c] end). assert (Hp : hull_points tp [a; b; c] unique pts) by (exists tps; auto).
    exists pts. split; [exact Hp|]. specialize (Gp pts Hp).
    assert (L6 : (length tps <= 6)%nat).
    { cbn [all_tangent_points] in Et. destruct (tp a) as [ta|] eqn:Ea; [|discriminate]. destruct (tp b) as [tb|] eqn:Eb; [|discriminate]. destruct (tp c) as [tc|] eqn:Ec; [|discriminate]. cbn [bind] in Et. injection Et as <-.
      rewrite !app_length. cbn. pose proof (tangents_two _ a ta So (Se a ltac:(cbn; auto)) Ea). pose proof (tangents_two _ b tb So (Se b ltac:(cbn; auto)) Eb). pose proof (tangents_two _ c tc So (Se c ltac:(cbn; auto)) Ec). lia. }
    destruct tps as [|t tps].
    - injection E as <-. intros q. split; [intros Q; destruct (st_nothing shapely_ok q Q)|]. unfold pts. intros ([|] & L & _ & S1 & _); [cbn in S1; lra|discriminate].
    - assert (Ep : pts = unique (t :: tps) ++ [a; b; c]) by reflexivity. rewrite <- Ep in E.
      assert (Np : pts <> []) by (rewrite Ep; intros Z; apply app_eq_nil in Z as [_ Z]; discriminate).
      destruct (C13_convex_hull_correct pts Np Gp) as (h & F & _ & Nd & Inc & Left & Hq).
      assert (Lp : (length pts <= 9)%nat) by (rewrite Ep, app_length; pose proof (unique_short (t :: tps)); cbn [length] in *; lia).
      rewrite (F hull_rounds ltac:(lia)) in E.
      assert (L3 : (3 <= length pts)%nat) by (rewrite Ep, app_length; cbn; lia).
      assert (TP := TH_pos). intros q. destruct (Hq L3 q) as [_ Hq']. rewrite <- Hq'.
      assert (St : (3 <= length h)%nat -> strict_ring h).
      { intros L. split; [exact L|]. split; [exact Nd|]. intros u w Huw r Hr N1 N2. specialize (Left u w Huw r (Inc r Hr) N1 N2). lra. }
      destruct h as [|h1 [|h2 [|h3 h]]]; try discriminate.
      + injection E as <-. split; [intros Q; destruct (st_nothing shapely_ok q Q)|]. intros ([|] & L & _ & S1 & _); [cbn in S1; lra|discriminate].
      + injection E as <-. apply (st_convex shapely_ok). apply St. cbn. lia.
  Qed.

  (** C102 *)
  Theorem C102_guarantee : forall fuel counter a, call op fuel counter x xg obs = Val a ->
    a_flag a = COMPLETE -> op_make_convex op = false -> uncut op a ->
    forall cl, In cl (a_clusters a) -> exists ob a1 a2 a3 adm,
      c_obstacle cl = Some ob /\ c_kernel_points cl = Some (a1, a2, a3) /\ c_admissible_kernel cl = Some adm /\
      obst_xr M ob = Val (triangle_mean (a1, a2, a3)) /\ in_hull [a1; a2; a3] (triangle_mean (a1, a2, a3)) /\
      (forall o p, In o (c_obstacles cl) -> shape_body (it_shape o) p -> obst_region den bodies ob p) /\
      ((forall o, In o (c_obstacles cl) -> (forall k, In k [a1; a2; a3] -> sees (it_shape o) k) /\
          forall pts, hull_points (shape_tangents (it_shape o)) [a1; a2; a3] unique pts -> general_position pts) ->
       (forall k, in_hull [a1; a2; a3] k -> starshaped_from (obst_region den bodies ob) k) /\
       (general_directions (directions_at M x (c_obstacles cl)) -> general_directions (directions_at M xg (c_obstacles cl)) ->
        (forall k, in_hull [a1; a2; a3] k -> interior (den adm) k) -> ~ obst_region den bodies ob x /\ ~ obst_region den bodies ob xg)).
  Proof.
    intros fuel counter a H Fl Mc Un cl Hcl.
    destruct (C100_guarantee M Sh setl den bodies unique op x xg obs setl_ok unique_ok shapes_geometry shapes_obstacles fuel counter a H Fl Mc Un cl Hcl) as (ob & a1 & a2 & a3 & adm & E1 & E2 & E3 & E4 & E5 & E6 & E7).
    destruct (answer_built M Sh setl den bodies op x xg obs setl_ok shapes_geometry shapes_obstacles fuel counter a H Fl Mc Un) as (k & _ & _ & Bl). destruct (Bl cl Hcl) as (W & _).
    exists ob, a1, a2, a3, adm. split; [exact E1|]. split; [exact E2|]. split; [exact E3|]. split; [exact E4|]. split; [exact E5|]. split; [exact E6|].
    intros Hk. apply E7. intros o Ho. destruct (Hk o Ho) as [Se Gp]. pose proof (all_solid o (W o Ho)) as So. split; [apply shapes_hull; auto|].
    intros z Hz. rewrite (im_tangents _ _ _ _ _ impl). apply sees_tangents; auto.
  Qed.

  Lemma strict_placed m v : strict_ring v -> strict_ring (map (to_frame m GLOBAL) v).
  Proof.
    intros (L & N & H). assert (Gg : good GLOBAL) by (left; reflexivity).
    assert (Em : map (to_frame m GLOBAL) v = map (shown m GLOBAL) v) by (apply map_ext; intros z; apply to_frame_shown; exact Gg). rewrite Em.
    split; [rewrite map_length; exact L|]. split; [apply FinFun.Injective_map_NoDup; [intros p q; apply shown_inj, Gg|exact N]|].
    intros a b E r Hr Na Nb. assert (Ec : In (a, b) (map (fun e => (shown m GLOBAL (fst e), shown m GLOBAL (snd e))) (cyc_edges v))).
    { revert E. clear. destruct v as [|u v]; [intros []|]. unfold cyc_edges. cbn [map]. change [shown m GLOBAL u] with (map (shown m GLOBAL) [u]). rewrite <- map_app. change (shown m GLOBAL u :: map (shown m GLOBAL) v) with (map (shown m GLOBAL) (u :: v)).
      generalize (u :: v), (v ++ [u]). induction l as [|p l IH]; intros [|q l0]; cbn; auto. intros [E|E]; [left; exact E|right; apply IH, E]. }
    apply in_map_iff in Ec as ([a' b'] & Q & Hab). cbn [fst snd] in Q. injection Q as <- <-. apply in_map_iff in Hr as (r' & <- & Hr).
    rewrite shown_area by exact Gg. apply (H a' b' Hab r' Hr); congruence.
  Qed.
  (** the polygon of a polygonal obstacle is the obstacle *)
  Lemma polygon_body o m v p : In o obs -> it_shape o = PolygonShape m v -> (den (ob_polygon M o) p <-> shape_body (it_shape o) p).
  Proof.
    intros Ho E. rewrite (im_polygon _ _ _ _ _ impl o m v _ E (map_res_frames m GLOBAL v (or_introl eq_refl))). pose proof (all_solid o Ho) as So. rewrite E in *. destruct So as [St _].
    rewrite (st_convex shapely_ok _ _ (strict_placed m v St)).
    assert (Em : map (to_frame m GLOBAL) v = map (shown m GLOBAL) v) by (apply map_ext; intros q; apply to_frame_shown; left; reflexivity). rewrite Em. cbn [shape_body]. split.
    - apply (hull_in_convex (placed m GLOBAL (in_hull v))); [apply placed_convex, in_hull_convex|]. intros q Hq. apply in_map_iff in Hq as (z & <- & Hz). exists z. split; [apply in_hull_mem, Hz|reflexivity].
    - intros (z & Hz & ->). apply (hull_in_convex (fun z => in_hull (map (shown m GLOBAL) v) (shown m GLOBAL z)) v z); [| |exact Hz].
      + intros a q r P Q (t & Ht & ->). apply (in_hull_convex _ (shown m GLOBAL a) (shown m GLOBAL q)); auto. exists t. split; [exact Ht|]. rewrite shown_along. reflexivity.
      + intros q Hq. apply in_hull_mem, in_map, Hq.
  Qed.
  (** obstacles of different clusters have no point in common, when all obstacles are polygons *)
  Theorem C102_disjoint : (forall o, In o obs -> exists m v, it_shape o = PolygonShape m v) -> (forall g h, sh_intersects Sh g h = false -> disjoint (den g) (den h)) ->
    forall fuel counter a, call op fuel counter x xg obs = Val a -> a_flag a = COMPLETE -> op_make_convex op = false -> uncut op a ->
    forall i j ci cj oi oj, i <> j -> nth_error (a_clusters a) i = Some ci -> nth_error (a_clusters a) j = Some cj ->
    c_obstacle ci = Some oi -> c_obstacle cj = Some oj -> disjoint (obst_region den bodies oi) (obst_region den bodies oj).
  Proof.
    intros Pol Meet fuel counter a H Fl Mc Un. apply (C100_disjoint M Sh setl den bodies op x xg obs setl_ok symmetric shapes_geometry shapes_obstacles) with (fuel := fuel) (counter := counter); auto.
    intros o p Ho. destruct (Pol o Ho) as (m & v & E). apply (polygon_body o m v p Ho E).
  Qed.

  (** C107 for polygons: the obstacles returned with make_convex *)
  Theorem C107_polygons : (forall o, In o obs -> exists m v, it_shape o = PolygonShape m v) -> (forall g h, sh_intersects Sh g h = false -> disjoint (den g) (den h)) ->
    (forall g h, sh_convex_hull Sh g = Ret h -> forall z, den h z <-> hull_region (den g) z) ->
    forall fuel counter a, call op fuel counter x xg obs = Val a -> a_flag a <> INCOMPLETE -> uncut op a ->
    (forall cl a1 a2 a3 o, In cl (a_clusters a) -> c_kernel_points cl = Some (a1, a2, a3) -> In o (c_obstacles cl) ->
       (forall k, In k [a1; a2; a3] -> sees (it_shape o) k) /\ forall pts, hull_points (shape_tangents (it_shape o)) [a1; a2; a3] unique pts -> general_position pts) ->
    (forall i cl, nth_error (a_clusters a) i = Some cl -> exists ob a1 a2 a3,
       c_obstacle cl = Some ob /\ c_kernel_points cl = Some (a1, a2, a3) /\ obst_xr M ob = Val (triangle_mean (a1, a2, a3)) /\
       (forall o p, In o (c_obstacles cl) -> shape_body (it_shape o) p -> obst_region den bodies ob p) /\
       (forall h p d, ob = HullPolygon h p d -> convex (obst_region den bodies ob)) /\
       (forall k, in_hull [a1; a2; a3] k -> obst_region den bodies ob k /\ starshaped_from (obst_region den bodies ob) k)) /\
    (forall i j ci cj oi oj, i <> j -> nth_error (a_clusters a) i = Some ci -> nth_error (a_clusters a) j = Some cj ->
       c_obstacle ci = Some oi -> c_obstacle cj = Some oj -> disjoint (obst_region den bodies oi) (obst_region den bodies oj)).
  Proof.
    intros Pol Meet Hulls fuel counter a H Fl Un Tg.
    assert (Cov : forall o p, In o obs -> (den (ob_polygon M o) p <-> bodies o p)) by (intros o p Ho; destruct (Pol o Ho) as (m & v & E); apply (polygon_body o m v p Ho E)).
    assert (Mem : forall cl o, In cl (a_clusters a) -> In o (c_obstacles cl) -> In o obs).
    { intros cl o Hc Ho. apply In_nth_error in Hc as [n Hn].
      destruct (before_after M Sh setl den bodies op x xg obs setl_ok symmetric shapes_geometry shapes_obstacles fuel counter a H Fl Un) as (k & _ & _ & Ba).
      destruct (Ba n cl Hn) as (c & _ & _ & (W & _) & _ & _ & Em & _). rewrite Em in Ho. apply W, Ho. }
    assert (Tg' : forall cl a1 a2 a3 o, In cl (a_clusters a) -> c_kernel_points cl = Some (a1, a2, a3) -> In o (c_obstacles cl) ->
       hull_right M den unique o a1 a2 a3 /\ forall k, In k [a1; a2; a3] -> tangents_of (ob_tangent_points M o) (bodies o) k).
    { intros cl a1 a2 a3 o Hc Ek Ho. destruct (Tg cl a1 a2 a3 o Hc Ek Ho) as [Se Gp]. pose proof (all_solid o (Mem cl o Hc Ho)) as So. split; [apply shapes_hull; auto|].
      intros z Hz. rewrite (im_tangents _ _ _ _ _ impl). apply sees_tangents; auto. }
    split.
    - intros i cl Hi.
      destruct (C107_guarantee M Sh setl den bodies unique op x xg obs setl_ok symmetric unique_ok shapes_geometry shapes_obstacles Hulls (fun o p Ho => proj2 (Cov o p Ho)) fuel counter a H Fl Un i cl Hi)
        as (ob & a1 & a2 & a3 & adm & E1 & E2 & E3 & E4 & E5 & E6 & E7 & E8).
      exists ob, a1, a2, a3. repeat (split; [assumption|]). destruct E8 as (St & Ker & _); [intros o Ho; apply (Tg' cl); auto; apply nth_error_In with i, Hi|]. auto.
    - apply (C107_disjoint M Sh setl den bodies unique op x xg obs setl_ok symmetric unique_ok shapes_geometry shapes_obstacles Hulls (fun o p Ho => proj2 (Cov o p Ho)) (fun o p Ho => proj1 (Cov o p Ho)) Meet fuel counter a H Fl Un Tg').
  Qed.
End Shapes.
Print Assumptions C102_guarantee.
Print Assumptions C102_disjoint.
Print Assumptions C107_polygons.
