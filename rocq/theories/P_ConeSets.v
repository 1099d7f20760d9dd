(** C103: the region of Cone.intersection and Cone.list_intersection. *)
From Coq Require Import Reals List Bool Arith Lia Lra.
From Verif Require Import Num Spec S_ConeRegion M_Cg M_Obstacle M_ConePolygon M_Clusters M_Starify M_ConeSets L_Geom L_Hull L_Cg L_Cone P_Cone L_Starify L_Guarantee P_ConeRegion.
Import ListNotations.
Open Scope R_scope.

Lemma both {A} (P : A -> Prop) x y : P x -> P y -> Forall P [x; y].
Proof. intros H K. constructor; [exact H|]. constructor; [exact K|constructor]. Qed.

Section ConeSets.
  Context {G : Type} (ring : list Pt -> G) (inter : G -> G -> G) (union : list G -> G) (den : G -> region).
  (** what is assumed of shapely *)
  Record cone_sets : Prop := {
    cs_fan : forall a l p, sweeps a l -> (den (ring (a :: l)) p <-> fan a l p);
    cs_nothing : forall p, ~ den (ring []) p;
    cs_inter : forall g h p, den (inter g h) p <-> den g p /\ den h p;
    cs_union : forall l p, den (union l) p <-> exists g, In g l /\ den g p }.
  Hypothesis sets_ok : cone_sets.
  (** a cone that can be drawn in the box *)
  Definition drawable (c : cone R) : Prop :=
    wf_cone c /\ 0 < box_margin (apex c) /\ usable (apex c) (dir1 c) /\ usable (apex c) (dir2 c) /\ apart (dir1 c) (dir2 c).
  Definition off_lines (p : Pt) (c : cone R) : Prop := cross (dir1 c) (vsub p (apex c)) <> 0 /\ cross (dir2 c) (vsub p (apex c)) <> 0.
  Definition in_cone (c : cone R) (p : Pt) : Prop := in_sector (dir1 c) (dir2 c) (vsub p (apex c)).

  Lemma shape_region c : drawable c -> exists g, cone_shape ring c = Val g /\ forall p, off_lines p c -> (den g p <-> in_box p /\ in_cone c p).
  Proof.
    intros (W & Bm & [U1 V1] & [U2 V2] & Ap). destruct (C101_region_partial (apex c) (dir1 c) (dir2 c) Bm U1 U2 V1 V2 Ap) as (l & E & Sw & F).
    exists (ring (apex c :: l)). unfold cone_shape. replace (cone_polygon c) with (cone_polygon (Cone (apex c) (dir1 c) (dir2 c))) by (f_equal; symmetry; exact W). rewrite E. split; [reflexivity|]. intros p [O1 O2]. rewrite (cs_fan sets_ok _ _ _ Sw). apply F; assumption.
  Qed.
  Lemma shapes_region cs : Forall drawable cs -> exists gs, omap (cone_shape ring) cs = Val gs /\
    forall p, Forall (off_lines p) cs -> ((exists g, In g gs /\ den g p) <-> in_box p /\ exists c, In c cs /\ in_cone c p).
  Proof.
    induction cs as [|c cs IH]; intros D.
    - exists []. split; [reflexivity|]. intros p _. split; [intros (g & [] & _)|intros (_ & c & [] & _)].
    - inversion_clear D as [|? ? Dc Ds]. destruct (shape_region c Dc) as (g & Eg & Rg). destruct (IH Ds) as (gs & Es & Rs).
      exists (g :: gs). cbn [omap]. rewrite Eg. cbn [obind]. rewrite Es. split; [reflexivity|]. intros p O. inversion_clear O as [|? ? Oc Os]. specialize (Rg p Oc). specialize (Rs p Os). split.
      + intros (h & [<-|Hh] & Dh); [apply Rg in Dh as [B I]; split; [exact B|exists c; cbn; auto]|]. destruct (proj1 Rs (ex_intro _ h (conj Hh Dh))) as (B & c' & Hc' & I). split; [exact B|exists c'; cbn; auto].
      + intros (B & c' & [<-|Hc'] & I); [exists g; split; [left; reflexivity|apply Rg; auto]|]. destruct (proj2 Rs (conj B (ex_intro _ c' (conj Hc' I)))) as (h & Hh & Dh). exists h. cbn. auto.
  Qed.
  Lemma cones_region l : Forall drawable l -> exists g, cones_shape ring union l = Val g /\ forall p, Forall (off_lines p) l -> (den g p <-> in_box p /\ exists c, In c l /\ in_cone c p).
  Proof.
    intros D. assert (Gen : exists g, obind (omap (cone_shape ring) l) (fun gs => Val (union gs)) = Val g /\ forall p, Forall (off_lines p) l -> (den g p <-> in_box p /\ exists c, In c l /\ in_cone c p)).
    { destruct (shapes_region l D) as (gs & E & F). exists (union gs). rewrite E. split; [reflexivity|]. intros p O. rewrite (cs_union sets_ok). apply F, O. }
    destruct l as [|c [|c' l]]; [exact Gen| |exact Gen]. inversion_clear D as [|? ? Dc _]. destruct (shape_region c Dc) as (g & E & F). exists g. split; [exact E|].
    intros p O. inversion_clear O as [|? ? Oc _]. rewrite (F p Oc). split; [intros [B I]; split; [exact B|exists c; cbn; auto]|]. intros (B & c' & [<-|[]] & I). auto.
  Qed.

  Lemma walk_ends i j : (i < 4)%nat -> (j < 4)%nat -> corner_walk 4 i j <> None.
  Proof. intros Hi Hj. do 4 (destruct i as [|i]; [do 4 (destruct j as [|j]; [discriminate|]); lia|]). lia. Qed.
  Lemma border_index r i : (i < 4)%nat -> (fst (border r i) < 4)%nat.
  Proof.
    intros H. unfold border. destruct (ray_intersection r (bb_edge i)); [exact H|]. destruct (ray_intersection r (bb_edge ((i + 1) mod 4))); cbn [fst]; apply Nat.mod_upper_bound; discriminate.
  Qed.
  Lemma edge_index_lt t : (edge_index t < 4)%nat.
  Proof. unfold edge_index. repeat destruct (_ && _); lia. Qed.
  Lemma shape_ends c : (exists g, cone_shape ring c = Val g) \/ cone_shape ring c = Raise AttributeErr.
  Proof.
    unfold cone_shape, cone_polygon. pose proof (border_index (Line (apex c) (padd (apex c) (dir1 c))) _ (edge_index_lt (arctan2 (snd (dir1 c)) (fst (dir1 c)) + PI))) as B1.
    pose proof (border_index (Line (apex c) (padd (apex c) (dir2 c))) _ (edge_index_lt (arctan2 (snd (dir2 c)) (fst (dir2 c)) + PI))) as B2.
    destruct (border _ _) as [i1 [q1|]]; destruct (border _ _) as [i2 [q2|]]; auto. cbn [fst] in B1, B2.
    destruct (negb _); [|left; eexists; reflexivity]. pose proof (walk_ends i1 i2 B1 B2). destruct (corner_walk 4 i1 i2); [left; eexists; reflexivity|congruence].
  Qed.
  Lemma shapes_end l : (exists g, cones_shape ring union l = Val g) \/ cones_shape ring union l = Raise AttributeErr.
  Proof.
    assert (Gen : (exists gs, omap (cone_shape ring) l = Val gs) \/ omap (cone_shape ring) l = Raise AttributeErr).
    { induction l as [|c l IH]; [left; eexists; reflexivity|]. cbn [omap]. destruct (shape_ends c) as [[g ->]| ->]; [cbn|right; reflexivity]. destruct IH as [[gs ->]| ->]; [left; eexists; reflexivity|right; reflexivity]. }
    destruct l as [|c [|c' l]]; [left; eexists; reflexivity|apply shape_ends|]. unfold cones_shape. destruct Gen as [[gs ->]| ->]; [left; eexists; reflexivity|right; reflexivity].
  Qed.
  (** C103: an empty list raises IndexError; otherwise the call ends, with a geometry or with the AttributeError of a cone that cannot be drawn *)
  Theorem C103_answers : forall cones same_apex,
    match cones with
    | [] => cone_list_intersection ring inter union cones same_apex = Raise IndexErr
    | _ => (exists g, cone_list_intersection ring inter union cones same_apex = Val g) \/ cone_list_intersection ring inter union cones same_apex = Raise AttributeErr
    end.
  Proof.
    intros [|c cs] []; try reflexivity; cbn [cone_list_intersection].
    - destruct (list_intersection (c :: cs)) eqn:E; [|left; eexists; reflexivity|apply shapes_end].
      exfalso. revert E. unfold list_intersection. destruct (list_intersection_loop [c] cs); discriminate.
    - destruct (shape_ends c) as [[g ->]| ->]; [cbn [obind]|right; reflexivity]. revert g. clear c. induction cs as [|c cs IH]; intros g; cbn [inter_all]; [left; eexists; reflexivity|].
      destruct (shape_ends c) as [[h ->]| ->]; [apply IH|right; reflexivity].
  Qed.

  (** C103: without the same-apex shortcut *)
  Theorem C103_list_region : forall cones, cones <> [] -> Forall drawable cones ->
    exists g, cone_list_intersection ring inter union cones false = Val g /\
      forall p, Forall (off_lines p) cones -> (den g p <-> in_box p /\ forall c, In c cones -> in_cone c p).
  Proof.
    intros cones Ne D. destruct cones as [|c cs]; [congruence|]. cbn [cone_list_intersection]. inversion_clear D as [|? ? Dc Ds]. destruct (shape_region c Dc) as (g & E & F). rewrite E. cbn [obind].
    assert (Gen : forall cs g (P : Pt -> Prop) done, Forall drawable cs -> (forall p, Forall (off_lines p) done -> (den g p <-> in_box p /\ P p)) ->
      exists h, inter_all ring inter g cs = Val h /\ forall p, Forall (off_lines p) (done ++ cs) -> (den h p <-> in_box p /\ P p /\ forall c, In c cs -> in_cone c p)).
    { clear - sets_ok. induction cs as [|c cs IH]; intros g P done D F.
      - exists g. split; [reflexivity|]. intros p O. rewrite app_nil_r in O. rewrite (F p O). split; [intros [A B]; repeat split; auto; intros ? []|tauto].
      - inversion_clear D as [|? ? Dc Ds]. destruct (shape_region c Dc) as (g' & E & F'). cbn [inter_all]. rewrite E. cbn [obind].
        destruct (IH (inter g g') (fun p => P p /\ in_cone c p) (done ++ [c]) Ds) as (h & Eh & Fh).
        { intros p O. apply Forall_app in O as [O1 O2]. inversion_clear O2 as [|? ? O3 _]. rewrite (cs_inter sets_ok), (F p O1), (F' p O3). tauto. }
        exists h. split; [exact Eh|]. intros p O. rewrite (Fh p) by (rewrite <- app_assoc; exact O). split.
        + intros (A & (B & C) & D). repeat split; auto. intros c' [<-|Hc']; auto.
        + intros (A & B & C). repeat split; auto; intros; apply C; cbn; auto. }
    destruct (Gen cs g (in_cone c) [c] Ds) as (h & Eh & Fh); [intros p O; inversion_clear O; auto|]. exists h. split; [exact Eh|]. intros p O. rewrite (Fh p O). split.
    - intros (A & B & C). split; [exact A|]. intros c' [<-|Hc']; auto.
    - intros (A & B). repeat split; auto; intros; apply B; cbn; auto.
  Qed.

  Lemma sector_unscale d1 d2 v l : 0 < l -> in_sector d1 d2 (smul l v) -> in_sector d1 d2 v.
  Proof. intros L H. apply (in_sector_scale _ _ _ (/ l)) in H; [|apply Rinv_0_lt_compat, L]. replace v with (smul (/ l) (smul l v)); [exact H|]. destruct v. unfold smul. cbn [fst snd]. apply pair_eq; field; lra. Qed.
  (** the shortcut for one apex: directions pairwise apart *)
  Section SameApex.
    Variables (a : Pt) (cones : list (cone R)).
    Hypothesis one_apex : forall c, In c cones -> apex c = a.
    Hypothesis draw : Forall drawable cones.
    Hypothesis general : general_directions (dirs cones).
    Lemma dir_usable d : In d (dirs cones) -> usable a d.
    Proof. intros H. apply in_flat_map in H as (c & Hc & H). rewrite Forall_forall in draw. destruct (draw c Hc) as (_ & _ & U1 & U2 & _). rewrite (one_apex c Hc) in U1, U2. destruct H as [<-|[<-|[]]]; assumption. Qed.
    Lemma good_drawable c : 0 < box_margin a -> good a (dirs cones) c -> drawable c.
    Proof. intros Bm (W & Ac & I1 & I2 & P). unfold drawable. rewrite Ac. repeat split; auto; apply dir_usable; assumption. Qed.
    Lemma good_off c p : (forall c, In c cones -> off_lines p c) -> good a (dirs cones) c -> off_lines p c.
    Proof.
      intros O (W & Ac & I1 & I2 & P). assert (Q : forall d, In d (dirs cones) -> cross d (vsub p a) <> 0).
      { intros d H. apply in_flat_map in H as (c' & Hc & H). destruct (O c' Hc) as [O1 O2]. rewrite (one_apex c' Hc) in O1, O2. destruct H as [<-|[<-|[]]]; assumption. }
      unfold off_lines. rewrite Ac. auto.
    Qed.
    (** membership at [p] agrees with the test of the code far out on the ray through [p] *)
    Lemma far_point p : (forall c, In c cones -> off_lines p c) -> exists q, (forall u, In u (dirs cones) -> apart u (vsub q a)) /\
      forall c, good a (dirs cones) c -> (point_in_cone c q = true <-> in_cone c p).
    Proof.
      intros O. assert (Q : forall d, In d (dirs cones) -> cross d (vsub p a) <> 0).
      { intros d H. apply in_flat_map in H as (c' & Hc & H). destruct (O c' Hc) as [O1 O2]. rewrite (one_apex c' Hc) in O1, O2. destruct H as [<-|[<-|[]]]; assumption. }
      destruct (far_out (dirs cones) (vsub p a) Q) as (lam & L & Ap). exists (vadd a (smul lam (vsub p a))).
      assert (Eq : vsub (vadd a (smul lam (vsub p a))) a = smul lam (vsub p a)) by (destruct a, p; unv; apply pair_eq; ring). rewrite Eq. split; [exact Ap|].
      intros c (W & Ac & I1 & I2 & P). replace (point_in_cone c) with (point_in_cone (Cone a (dir1 c) (dir2 c))) by (f_equal; rewrite <- Ac; symmetry; exact W). rewrite (C15_point_in_cone_is_sector a (dir1 c) (dir2 c)) by (try rewrite Eq; auto). rewrite Eq. unfold in_cone. rewrite Ac. split; [apply sector_unscale; lra|apply in_sector_scale; lra].
    Qed.
    Lemma member_good c : In c cones -> good a (dirs cones) c.
    Proof.
      intros Hc. rewrite Forall_forall in draw. destruct (draw c Hc) as (W & _ & _ & _ & P). repeat split; auto; apply in_flat_map; exists c; cbn; auto.
    Qed.
    Theorem C103_same_apex_partial : cones <> [] -> exists g, cone_list_intersection ring inter union cones true = Val g /\
      forall p, Forall (off_lines p) cones -> (den g p <-> in_box p /\ forall c, In c cones -> in_cone c p).
    Proof.
      intros Ne. assert (Bm : 0 < box_margin a). { destruct cones as [|c cs]; [congruence|]. inversion_clear draw as [|? ? D _]. destruct D as (_ & B & _). rewrite (one_apex c (or_introl eq_refl)) in B. exact B. }
      assert (Wf : forall c, In c cones -> wf_cone c /\ apex c = a) by (intros c Hc; destruct (member_good c Hc) as (W & A & _); auto).
      cbn [cone_list_intersection]. destruct (list_intersection cones) as [| |l] eqn:El.
      - destruct cones; [congruence|]. cbn in El. destruct (list_intersection_loop _ _); discriminate.
      - exists (ring []). split; [reflexivity|]. intros p O. rewrite Forall_forall in O. split; [intros H; destruct (cs_nothing sets_ok p H)|]. intros [_ H]. exfalso.
        destruct (far_point p O) as (q & Aq & Fq). pose proof (list_intersection_ok a q cones Ne Wf Aq general) as K. rewrite El in K. apply K. intros c Hc. apply Fq; [apply member_good, Hc|apply H, Hc].
      - assert (Gd : forall c, In c l -> good a (dirs cones) c) by (apply (list_good a cones l Wf general El)).
        destruct (cones_region l) as (g & E & F); [apply Forall_forall; intros c Hc; apply good_drawable; auto|]. exists g. split; [exact E|].
        intros p O. rewrite Forall_forall in O. rewrite (F p) by (apply Forall_forall; intros c Hc; apply good_off; auto).
        destruct (far_point p O) as (q & Aq & Fq). pose proof (list_intersection_ok a q cones Ne Wf Aq general) as K. rewrite El in K. destruct K as [_ K].
        assert (K' : (exists c, In c l /\ in_cone c p) <-> forall c, In c cones -> in_cone c p).
        { split.
          - intros (c & Hc & I) c' Hc'. apply (Fq c' (member_good c' Hc')). apply (proj1 K); [|exact Hc']. exists c. split; [exact Hc|]. apply Fq; auto.
          - intros H. destruct (proj2 K) as (c & Hc & I); [intros c Hc; apply Fq; [apply member_good, Hc|apply H, Hc]|]. exists c. split; [exact Hc|]. apply Fq; auto. }
        rewrite K'. reflexivity.
    Qed.
  End SameApex.

  (** Cone.intersection is the intersection of a list of two cones *)
  Theorem C103_pair_partial : forall c1 c2 same_apex, drawable c1 -> drawable c2 -> (same_apex = true -> apex c1 = apex c2 /\ general_directions (dirs [c1; c2])) ->
    exists g, cone_intersection ring inter union c1 c2 same_apex = Val g /\
      forall p, off_lines p c1 -> off_lines p c2 -> (den g p <-> in_box p /\ in_cone c1 p /\ in_cone c2 p).
  Proof.
    intros c1 c2 sa D1 D2 H. destruct sa.
    - destruct (H eq_refl) as [Ea Gd]. cbn [cone_intersection].
      destruct (C103_same_apex_partial (apex c1) [c1; c2]) as (g & E & F); [intros c [<-|[<-|[]]]; auto|apply both; auto|exact Gd|discriminate|].
      cbn [cone_list_intersection list_intersection list_intersection_loop flat_map] in E. rewrite app_nil_r in E.
      assert (K : forall p, off_lines p c1 -> off_lines p c2 -> (den g p <-> in_box p /\ in_cone c1 p /\ in_cone c2 p)).
      { intros p O1 O2. rewrite (F p) by (apply both; auto). split; [intros [B I]; repeat split; auto; apply I; cbn; auto|]. intros (B & I1 & I2). split; [exact B|]. intros c [<-|[<-|[]]]; auto. }
      destruct (intersection_same_apex c1 c2) as [|c l].
      + injection E as <-. exists (union []). split; [reflexivity|]. intros p O1 O2. rewrite <- (K p O1 O2), (cs_union sets_ok). split; [intros (g & [] & _)|intros Hn; destruct (cs_nothing sets_ok p Hn)].
      + exists g. split; [exact E|exact K].
    - destruct (shape_region c1 D1) as (g1 & E1 & F1). destruct (shape_region c2 D2) as (g2 & E2 & F2). exists (inter g1 g2). cbn [cone_intersection]. rewrite E1. cbn [obind]. rewrite E2. split; [reflexivity|].
      intros p O1 O2. rewrite (cs_inter sets_ok), (F1 p O1), (F2 p O2). tauto.
  Qed.
End ConeSets.
Print Assumptions C103_answers.
Print Assumptions C103_list_region.
Print Assumptions C103_same_apex_partial.
Print Assumptions C103_pair_partial.

(** a geometry is a set of points *)
Definition set_ring (h : list Pt) : region := match h with a :: l => fan a l | [] => fun _ => False end.
Definition set_inter (g h : region) : region := fun p => g p /\ h p.
Definition set_union (l : list region) : region := fun p => exists g, In g l /\ g p.
Lemma plain_sets : cone_sets set_ring set_inter set_union (fun g => g).
Proof. split; [reflexivity|auto|reflexivity|reflexivity]. Qed.
Definition quadrant : cone R := Cone (0, 0) (2, 1) (1, 2).
Definition half : cone R := Cone (0, 0) (3, -1) (-1, 4).
Lemma draw_ex d1 d2 : 1 <= max_coord d1 -> 1 <= max_coord d2 -> apart d1 d2 -> drawable (Cone (0, 0) d1 d2).
Proof.
  intros M1 M2 A. assert (Bm : box_margin (0, 0) = 1000000) by (unfold box_margin; cbn [fst snd]; rewrite Rabs_R0, Rmax_left; lra).
  split; [apply Cone_wf|]. cbn [apex dir1 dir2 Cone]. unfold usable. rewrite Bm. cbv zeta. repeat split; try lra; try exact A; try (unfold TH; lra).
Qed.
Example C103_example : drawable quadrant /\ drawable half /\ general_directions (dirs [quadrant; half]) /\ off_lines (1, 1) quadrant /\ off_lines (1, 1) half /\
  forall same_apex, exists g, cone_list_intersection set_ring set_inter set_union [quadrant; half] same_apex = Val g /\ g (1, 1) /\ ~ g (-1, -1).
Proof.
  assert (Mx : forall u w, 1 <= u \/ 1 <= w -> 1 <= max_coord (u, w)).
  { intros u w H. unfold max_coord. cbn [fst snd]. destruct H as [H|H]; [eapply Rle_trans; [|apply Rmax_l]|eapply Rle_trans; [|apply Rmax_r]]; rewrite Rabs_pos_eq; lra. }
  assert (D1 : drawable quadrant) by (apply draw_ex; [apply Mx; lra|apply Mx; lra|unfold apart, TH, Rabs; unv; destruct (Rcase_abs _); lra]).
  assert (D2 : drawable half) by (apply draw_ex; [apply Mx; lra|apply Mx; lra|unfold apart, TH, Rabs; unv; destruct (Rcase_abs _); lra]).
  assert (Gd : general_directions (dirs [quadrant; half])).
  { unfold general_directions, dirs. cbn [flat_map app quadrant half dir1 dir2 Cone]. repeat (constructor; [repeat (constructor; [unfold apart, TH, Rabs; unv; destruct (Rcase_abs _); lra|]); constructor|]). constructor. }
  assert (O : forall p, p = (1, 1) \/ p = (-1, -1) -> off_lines p quadrant /\ off_lines p half).
  { intros p [->| ->]; split; split; cbn [quadrant half dir1 dir2 apex Cone]; unv; lra. }
  destruct (O (1, 1)) as [O1 O2]; [auto|]. destruct (O (-1, -1)) as [O3 O4]; [auto|].
  split; [exact D1|]. split; [exact D2|]. split; [exact Gd|]. split; [exact O1|]. split; [exact O2|].
  assert (S : forall c p, (c = quadrant \/ c = half) -> p = (1, 1) \/ p = (-1, -1) -> (in_cone c p <-> point_in_cone c p = true)).
  { intros c p [->| ->] [->| ->]; unfold in_cone; symmetry; apply C15_point_in_cone_is_sector; cbn [quadrant half dir1 dir2 apex Cone]; unfold apart, TH, Rabs; unv; destruct (Rcase_abs _); lra. }
  assert (Cx : forall c, c = quadrant \/ c = half -> is_convex c = true).
  { intros c [->| ->]; cbn [quadrant half is_convex Cone]; apply is_ccw_iff; unfold n0; nR; rewrite Num.Q2R_0; unfold TH; unv; lra. }
  assert (P : in_cone quadrant (1, 1) /\ in_cone half (1, 1) /\ ~ in_cone quadrant (-1, -1)).
  { rewrite !S by auto. unfold point_in_cone. rewrite !Cx by auto. cbn [quadrant half dir1 dir2 apex Cone]. unfold not. rewrite !andb_true_iff, !is_ccw_iff, !is_cw_iff. unfold padd; nR. unfold TH. unv. lra. }
  destruct P as (P1 & P2 & P3).
  assert (B : in_box (1, 1)) by (unfold in_box, max_coord; cbn [fst snd]; rewrite !Rabs_pos_eq, Rmax_left by lra; lra).
  intros sa. assert (K : exists g, cone_list_intersection set_ring set_inter set_union [quadrant; half] sa = Val g /\ forall p, Forall (off_lines p) [quadrant; half] -> (g p <-> in_box p /\ forall c, In c [quadrant; half] -> in_cone c p)).
  { destruct sa; [apply (C103_same_apex_partial _ _ _ _ plain_sets (0, 0)); [intros c [<-|[<-|[]]]; reflexivity|apply both; [exact D1|exact D2]|exact Gd|discriminate]|apply (C103_list_region _ _ _ _ plain_sets); [discriminate|apply both; [exact D1|exact D2]]]. }
  destruct K as (g & E & F). exists g. split; [exact E|]. split; [apply F; [apply both; [exact O1|exact O2]|split; [exact B|intros c [<-|[<-|[]]]; auto]]|]. intros H. apply F in H; [|apply both; [exact O3|exact O4]]. apply P3. apply H. cbn. auto.
Qed.

(** a cone with itself: the shortcut loses the cone, the general way does not *)
Theorem C103_shared_refuted : exists c, drawable c /\
  cone_list_intersection set_ring set_inter set_union [c; c] true = Val (set_ring []) /\
  exists g p, cone_list_intersection set_ring set_inter set_union [c; c] false = Val g /\ g p.
Proof.
  exists quadrant. destruct C103_example as (D1 & _ & _ & O1 & _). split; [exact D1|]. split.
  - cbn [cone_list_intersection list_intersection list_intersection_loop flat_map]. unfold quadrant. rewrite C18_self_intersection_partial.
    assert (C : is_ccw (n0, n0) (2, 1) (1, 2) = true) by (apply is_ccw_iff; unfold n0; nR; rewrite Num.Q2R_0; unfold TH; unv; lra). rewrite C. reflexivity.
  - destruct (C103_list_region _ _ _ _ plain_sets [quadrant; quadrant]) as (g & E & F); [discriminate|apply both; exact D1|]. exists g, (1, 1). split; [exact E|]. apply F; [apply both; exact O1|].
    split; [unfold in_box, max_coord; cbn [fst snd]; rewrite !Rabs_pos_eq, Rmax_left by lra; lra|].
    assert (I : in_cone quadrant (1, 1)).
    { assert (C : is_convex quadrant = true) by (cbn [quadrant is_convex Cone]; apply is_ccw_iff; unfold n0; nR; rewrite Num.Q2R_0; unfold TH; unv; lra).
      assert (K : point_in_cone quadrant (1, 1) = true).
      { unfold point_in_cone. rewrite C. cbn [quadrant dir1 dir2 apex Cone]. rewrite andb_true_iff, is_ccw_iff, is_cw_iff. unfold padd; nR. unfold TH. unv. lra. }
      apply C15_point_in_cone_is_sector; [| | |exact K]; cbn [quadrant half dir1 dir2 apex Cone]; unfold apart, TH, Rabs; unv; destruct (Rcase_abs _); lra. }
    intros c [<-|[<-|[]]]; exact I.
Qed.
Print Assumptions C103_shared_refuted.
