(** Properties C24-C32: obstacles/obstacle.py and obstacles/starshaped_obstacle.py. *)
From Coq Require Import Reals Lra Lia List Bool ZArith.
From Verif Require Import Num Spec M_Cg M_Motion M_Obstacle L_Geom L_Cg L_Gen L_Motion L_Obstacle.
Import ListNotations.
Open Scope R_scope.
Local Arguments affine_transform : simpl never.

(** C24: [nth k l IdOther] is the k-th request of the history, [nth k (set_ids 0 l) None] the id it got *)
Theorem C24_ids : forall l k, (k < length l)%nat ->
  match nth k l IdOther with
  | IdNew => exists z, nth k (set_ids 0 l) None = Some z /\ (0 < z)%Z /\
      forall j y, (j < k)%nat -> nth j l IdOther = IdNew -> nth j (set_ids 0 l) None = Some y -> (y < z)%Z
  | IdInt z =>
      let handed_out := exists j, (j < k)%nat /\ nth j l IdOther = IdNew /\ nth j (set_ids 0 l) None = Some z in
      (handed_out -> nth k (set_ids 0 l) None = Some z) /\ (~ handed_out -> nth k (set_ids 0 l) None = None)
  | _ => nth k (set_ids 0 l) None = None
  end.
Proof.
  intros l k Hk. rewrite set_ids_nth by exact Hk. destruct (nth k l IdOther) eqn:E; cbn [set_id snd]; auto.
  - exists (handed 0 l k + 1)%Z. split; [reflexivity|]. pose proof (handed_pos l k ltac:(lia)). split; [lia|].
    intros j y Hj Ej. rewrite set_ids_nth by lia. rewrite Ej. cbn. injection 1 as <-.
    pose proof (handed_mono 0 l (S j) k ltac:(lia)) as M. rewrite handed_S, Ej in M by lia. cbn in M. lia.
  - cbv zeta. split.
    + intros (j & Hj & Ej & Sj). rewrite set_ids_nth, Ej in Sj by lia. cbn in Sj. injection Sj as <-.
      pose proof (handed_mono 0 l (S j) k ltac:(lia)) as M. rewrite handed_S, Ej in M by lia. cbn in M.
      pose proof (handed_pos l j ltac:(lia)).
      destruct (Z.ltb_spec 0 (handed 0 l j + 1)); [|lia]. destruct (Z.leb_spec (handed 0 l j + 1) (handed 0 l k)); [reflexivity|lia].
    + intros N. destruct (Z.ltb_spec 0 z); [|reflexivity]. destruct (Z.leb_spec z (handed 0 l k)); [|reflexivity].
      exfalso. apply N. destruct (handed_surj l k z ltac:(lia) ltac:(lia)) as (j & A & B & C).
      exists j. split; [exact A|]. split; [exact B|]. rewrite set_ids_nth, B by lia. cbn. f_equal. exact C.
Qed.
Print Assumptions C24_ids.
Example C24_example : set_ids 0 [IdNew; IdInt 2; IdNew; IdTemporary; IdInt 2; IdOther; IdNew] =
  [Some 1; None; Some 2; None; Some 2; None; Some 3]%Z.
Proof. reflexivity. Qed.

(** C25: Polygon (and StarshapedPrimitiveCombination) copies are independent in both directions *)
Theorem C25_deep_copy_partial : forall c h r h1 r1, (c = CPolygon \/ c = CCombination) ->
  (forall l, r = Some l -> (l < length h)%nat) -> copy_ref c h r = (h1, r1) ->
  pose_ref h1 r1 = pose_ref h r /\ pose_ref h1 r = pose_ref h r /\
  (forall dts h2, moves_ref h1 r1 dts = Some h2 -> pose_ref h2 r = pose_ref h r) /\
  (forall dts h2, moves_ref h1 r dts = Some h2 -> pose_ref h2 r1 = pose_ref h r).
Proof.
  intros c h r h1 r1 Hc Hr E. assert (E' : copy_ref CPolygon h r = (h1, r1)) by (destruct Hc; subst c; exact E). clear E Hc c.
  cbn in E'. destruct r as [l|]; [|injection E' as <- <-; repeat split; reflexivity].
  injection E' as <- <-. specialize (Hr l eq_refl). cbn [pose_ref].
  assert (N1 : nth (length h) (h ++ [nth l h dead]) dead = nth l h dead) by (rewrite app_nth2, Nat.sub_diag by lia; reflexivity).
  assert (N2 : nth l (h ++ [nth l h dead]) dead = nth l h dead) by (rewrite app_nth1 by lia; reflexivity).
  rewrite N1, N2. split; [reflexivity|]. split; [reflexivity|]. split; intros dts h2 M.
  - destruct (moves_ref_other _ _ l _ _ M) as [A _]; [intros Z; injection Z; lia|]. rewrite A, N2. reflexivity.
  - destruct (moves_ref_other _ _ (length h) _ _ M) as [A _]; [intros Z; injection Z; lia|]. rewrite A, N1. reflexivity.
Qed.
Print Assumptions C25_deep_copy_partial.
(** Ellipse and StarshapedPolygon copies share the motion model: moving one moves the other *)
Theorem C25_shared_copy_refuted : forall c, (c = CEllipse \/ c = CStarPolygon) ->
  exists h r h1 r1 h2, (forall l, r = Some l -> (l < length h)%nat) /\ copy_ref c h r = (h1, r1) /\
    moves_ref h1 r1 [1] = Some h2 /\ pose_ref h r = ((0, 0), 0) /\ pose_ref h2 r = ((3, 0), 0).
Proof.
  intros c Hc. exists [sinus_new None 0 true 3 0 0 0], (Some 0%nat), [sinus_new None 0 true 3 0 0 0], (Some 0%nat).
  eexists. split; [intros l H; injection H as <-; cbn; lia|]. split; [destruct Hc; subst c; reflexivity|].
  split; [reflexivity|]. split; [reflexivity|]. cbn -[freq cos]. unfold padd, scale. cbn -[freq cos].
  rewrite Rmult_0_r, cos_0. apply f_equal2; [apply pair_eq; lra|lra].
Qed.
Print Assumptions C25_shared_copy_refuted.
(** ... precisely: the original follows every move of the copy *)
Theorem C25_shared_copy_follows : forall c h l dts h1 r1 h2, (c = CEllipse \/ c = CStarPolygon) -> (l < length h)%nat ->
  copy_ref c h (Some l) = (h1, r1) -> moves_ref h1 r1 dts = Some h2 ->
  exists m, moves (nth l h dead) dts = Some m /\ pose_ref h2 (Some l) = (m_pos m, m_rot m).
Proof.
  intros c h l dts h1 r1 h2 Hc Hl E M. assert (E' : (h, Some l) = (h1, r1)) by (destruct Hc; subst c; exact E).
  injection E' as <- <-. rewrite moves_ref_own in M by exact Hl.
  destruct (moves (nth l h dead) dts) as [m|] eqn:S; [|discriminate]. exists m. split; [reflexivity|]. injection M as <-.
  cbn [pose_ref]. destruct dts; [injection S as <-; reflexivity|]. rewrite upd_same by exact Hl. reflexivity.
Qed.
Print Assumptions C25_shared_copy_follows.
(** an obstacle without a motion model stays at the origin, and so do its copies, whatever their class *)
Theorem C25_at_rest : forall c h h1 r1 dts, copy_ref c h None = (h1, r1) ->
  r1 = None /\ h1 = h /\ moves_ref h1 r1 dts = Some h /\ pose_ref h1 r1 = ((0, 0), 0).
Proof.
  intros c h h1 r1 dts E. assert (X : (h, None) = (h1, r1)) by (destruct c; exact E). injection X as <- <-.
  split; [reflexivity|]. split; [reflexivity|]. split; [|reflexivity]. unfold moves_ref. induction dts as [|t dts IH]; [reflexivity|exact IH].
Qed.
Print Assumptions C25_at_rest.
Example C25_example : exists h2, moves_ref (fst (copy_ref CPolygon [sinus_new None 0 true 3 0 0 0] (Some 0%nat)))
    (snd (copy_ref CPolygon [sinus_new None 0 true 3 0 0 0] (Some 0%nat))) [1] = Some h2 /\ pose_ref h2 (Some 0%nat) = ((0, 0), 0).
Proof. eexists. split; reflexivity. Qed.

(** C26 *)
Theorem C26_polygon_fresh : forall k m0 xr ops o, run k (new_obj k m0 xr) ops = Some o ->
  o_mm o = fold_left mm_step ops m0 /\
  snd (polygon k OBSTACLE o) = Ret (Some (rep_of k)) /\
  snd (polygon k GLOBAL o) = match o_mm o with
    | None => Ret (Some (rep_of k))
    | Some m => Ret (Some (map (place (m_rot m) (m_pos m)) (rep_of k)))
    end.
Proof.
  intros k m0 xr ops o E. destruct (run_poly k ops _ o (new_inv k m0 xr) E) as [I M].
  split; [rewrite M; destruct k; reflexivity|].
  pose proof (polygon_spec k OBSTACLE o I) as (_ & _ & _ & _ & _ & _ & _ & A).
  pose proof (polygon_spec k GLOBAL o I) as (_ & _ & _ & _ & _ & _ & _ & B).
  split; [exact A|]. rewrite B. destruct (o_mm o); reflexivity.
Qed.
Print Assumptions C26_polygon_fresh.
Example C26_example : exists o, run (KPolygon [(0, 0); (1, 0); (0, 1)]) (new_obj (KPolygon [(0, 0); (1, 0); (0, 1)]) (Some (static_new None 0)) (0, 0))
    [OpPolygon GLOBAL; OpSetPos (5, 5); OpPolygon GLOBAL; OpMove 1; OpSetRot PI] = Some o /\
  snd (polygon (KPolygon [(0, 0); (1, 0); (0, 1)]) GLOBAL o) = Ret (Some (map (place PI (5, 5)) [(0, 0); (1, 0); (0, 1)])).
Proof.
  destruct (run (KPolygon [(0, 0); (1, 0); (0, 1)]) (new_obj (KPolygon [(0, 0); (1, 0); (0, 1)]) (Some (static_new None 0)) (0, 0))
    [OpPolygon GLOBAL; OpSetPos (5, 5); OpPolygon GLOBAL; OpMove 1; OpSetRot PI]) as [o|] eqn:E.
  - exists o. split; [reflexivity|]. destruct (C26_polygon_fresh _ _ _ _ _ E) as (M & _ & G). rewrite G, M.
    cbn [fold_left mm_step option_map set_rot set_pos m_rot m_pos m_class static_new move lin_vel]. cbn -[place map PI].
    unfold padd, scale. cbn -[place map PI]. do 3 f_equal. f_equal. apply pair_eq; lra.
  - exfalso. cbn [run step new_obj] in E.
    destruct (polygon _ _ _) as [o1 r1] eqn:P1 in E.
    assert (M1 : o_mm o1 = Some (static_new None 0)) by (pose proof (step_mm (KPolygon [(0, 0); (1, 0); (0, 1)]) _ (OpPolygon GLOBAL) o1 r1 (f_equal Some P1)) as Z; exact Z).
    destruct (polygon _ _ _) as [o2 r2] eqn:P2 in E.
    pose proof (step_mm (KPolygon [(0, 0); (1, 0); (0, 1)]) _ (OpPolygon GLOBAL) o2 r2 (f_equal Some P2)) as M2.
    cbn [mm_step] in M2. rewrite M2 in E. unfold with_mm in E at 1. cbn [o_mm] in E. rewrite M1 in E. cbn in E. discriminate.
Qed.

(** C27: kernel(GLOBAL) of an Ellipse raises when polygon() has not been called yet, and after that it keeps
    returning None although kernel(OBSTACLE) returns the polygon *)
Theorem C27_kernel_stale_refuted : exists rep m0 xr ops o, rep <> [] /\
  run (KEllipse rep) (new_obj (KEllipse rep) (Some m0) xr) ops = Some o /\
  snd (kernel (KEllipse rep) OBSTACLE o) = Ret (Some rep) /\ snd (kernel (KEllipse rep) GLOBAL o) = Ret None.
Proof.
  set (rep := [(1, 0); (0, 1); (-1, 0)] : list RPt). set (m0 := static_new None 0).
  exists rep, m0, (0, 0), [OpKernel GLOBAL; OpPolygon OBSTACLE].
  exists (Obj (Some m0) (Some rep) None None None None (Some (pose_of m0)) (0, 0)).
  split; [discriminate|]. split; [reflexivity|]. split; [reflexivity|].
  unfold kernel. cbn [o_kernel o_mm o_kernel_pose o_polygon].
  rewrite (proj2 (pose_eqb_eq _ _) eq_refl). reflexivity.
Qed.
Print Assumptions C27_kernel_stale_refuted.
(** right for every StarshapedPolygon that has a kernel, and for an Ellipse whose polygon() was called before any kernel() *)
Theorem C27_kernel_fresh_partial :
  (forall rep q m0 xr ops o, let k := KStarPolygon rep (Some q) in run k (new_obj k m0 xr) ops = Some o ->
     snd (kernel k OBSTACLE o) = Ret (Some q) /\
     snd (kernel k GLOBAL o) = match o_mm o with None => Ret (Some q) | Some m => Ret (Some (map (place (m_rot m) (m_pos m)) q)) end) /\
  (forall rep m0 xr ops1 f ops2 o, let k := KEllipse rep in Forall no_kernel ops1 ->
     run k (new_obj k m0 xr) (ops1 ++ OpPolygon f :: ops2) = Some o ->
     snd (kernel k OBSTACLE o) = Ret (Some rep) /\
     snd (kernel k GLOBAL o) = match o_mm o with None => Ret (Some rep) | Some m => Ret (Some (map (place (m_rot m) (m_pos m)) rep)) end).
Proof.
  assert (G : forall k q o, inv_kern k q o -> snd (kernel k OBSTACLE o) = Ret (Some q) /\
     snd (kernel k GLOBAL o) = match o_mm o with None => Ret (Some q) | Some m => Ret (Some (map (place (m_rot m) (m_pos m)) q)) end).
  { intros k q o I. split; [apply (kernel_spec k q OBSTACLE o I)|]. rewrite (proj2 (kernel_spec k q GLOBAL o I)). destruct (o_mm o); reflexivity. }
  split.
  - intros rep q m0 xr ops o k E. apply G. apply (run_kern k q ops (new_obj k m0 xr)); auto; [apply new_inv|].
    split; [reflexivity|]. split; discriminate.
  - intros rep m0 xr ops1 f ops2 o k F E. apply G. rewrite run_app in E.
    destruct (run k (new_obj k m0 xr) ops1) as [o1|] eqn:E1; [|discriminate].
    destruct (run_poly k ops1 _ o1 (new_inv k m0 xr) E1) as [I1 _].
    destruct (run_untouched k ops1 _ o1 F (new_inv k m0 xr) eq_refl eq_refl E1) as [K1 K2].
    cbn [run step] in E. destruct (polygon k f o1) as [o2 r2] eqn:P.
    pose proof (polygon_spec k f o1 I1) as (A & _ & _ & B & C & D & Z & _). rewrite P in A, B, C, D, Z. cbn [fst] in *.
    apply (run_kern k rep ops2 o2); auto. split; [exact Z|]. split.
    + rewrite B, K1. discriminate.
    + rewrite D, K2. discriminate.
Qed.
Print Assumptions C27_kernel_fresh_partial.
Example C27_example : exists o, run (KEllipse [(1, 0); (0, 1); (-1, 0)]) (new_obj (KEllipse [(1, 0); (0, 1); (-1, 0)]) None (0, 0))
    [OpMove 1; OpPolygon GLOBAL; OpKernel GLOBAL] = Some o /\ Forall no_kernel [OpMove 1].
Proof. eexists. split; [reflexivity|]. repeat constructor. Qed.

(** C28 *)
Theorem C28_frames : forall m x fi fo, (fi = GLOBAL \/ fi = OBSTACLE) -> (fo = GLOBAL \/ fo = OBSTACLE) ->
  (exists y, transform m x fi fo = Ret y /\ transform m y fo fi = Ret x) /\
  (fi = fo \/ m = None -> transform m x fi fo = Ret x /\ rotate m x fi fo = Ret x) /\
  (exists v, rotate m x fi fo = Ret v /\ norm v = norm x /\
     forall p q tp tq, x = vsub p q -> transform m p fi fo = Ret tp -> transform m q fi fo = Ret tq -> v = vsub tp tq).
Proof.
  intros m x fi fo Hi Ho. split; [|split].
  - destruct (transform_good m x fi fo Hi Ho) as [y E]. exists y. split; [exact E|]. eapply transform_roundtrip; eauto.
  - intros [-> | ->]; [|split; reflexivity]. destruct m; [|split; reflexivity].
    destruct Hi as [->| ->]; split; reflexivity.
  - destruct (rotate_good m x fi fo Hi Ho) as (a & E & H). exists (rotv a x). split; [exact E|]. split; [apply rotv_norm|].
    intros p q tp tq -> Hp Hq. symmetry. apply H; auto.
Qed.
Print Assumptions C28_frames.
(** transform places the obstacle-frame point at the pose *)
Theorem C28_transform_is_place : forall m x, transform (Some m) x OBSTACLE GLOBAL = Ret (place (m_rot m) (m_pos m) x).
Proof. intros. cbn. rewrite affine_forward. reflexivity. Qed.
Print Assumptions C28_transform_is_place.
Theorem C28_bad_frame : forall m x f, (f = GLOBAL \/ f = OBSTACLE) ->
  transform (Some m) x f OTHER = Exn InvalidFrameError /\ transform (Some m) x OTHER f = Exn InvalidFrameError.
Proof. intros m x f [->| ->]; split; reflexivity. Qed.
Print Assumptions C28_bad_frame.
Example C28_example : transform (Some (static_new (Some (5, 6)) PI)) (1, 2) OBSTACLE GLOBAL = Ret (4, 4).
Proof. rewrite C28_transform_is_place. cbn [m_rot m_pos static_new]. f_equal. unfold place, rotv, vadd. cbn [fst snd]. rewrite cos_PI, sin_PI. apply pair_eq; lra. Qed.

(** C29 *)
Theorem C29_set_xr : forall k m0 xr0 ops o p f o' r, (forall rep, k <> KPolygon rep) ->
  run k (new_obj k m0 xr0) ops = Some o -> (f = GLOBAL \/ f = OBSTACLE) ->
  step k o (OpSetXr p f false) = Some (o', r) -> r = Ret None /\ get_xr o' f = Ret p /\ o_mm o' = o_mm o.
Proof.
  intros k m0 xr0 ops o p f o' r Hk _ Hf E. cbn [step] in E. injection E as E. unfold set_xr in E.
  assert (G : forall y, transform (o_mm o) p f OBSTACLE = Ret y -> (with_xr y o, Ret None) = (o', r) -> r = Ret None /\ get_xr o' f = Ret p /\ o_mm o' = o_mm o).
  { intros y T Q. injection Q as <- <-. split; [reflexivity|]. split; [|reflexivity]. unfold get_xr. cbn [o_mm o_xr with_xr].
    apply (transform_roundtrip (o_mm o) p f OBSTACLE y); auto. right; reflexivity. }
  destruct (transform_good (o_mm o) p f OBSTACLE Hf (or_intror eq_refl)) as [y T]. rewrite T in E.
  destruct k; [destruct (Hk rep eq_refl)| |]; apply (G y); auto.
Qed.
Print Assumptions C29_set_xr.
(** safe_set=True never changes xr ... because it always raises, for points of the kernel as well *)
Theorem C29_safe_set_raises : forall k o p f, exists o' e, step k o (OpSetXr p f true) = Some (o', Exn e) /\ o_xr o' = o_xr o.
Proof.
  intros k o p f. cbn [step]. unfold set_xr. destruct k as [rep|rep q|rep]; [eauto| |];
  (destruct (transform (o_mm o) p f OBSTACLE); [|eauto]).
  - pose proof (kernel_keeps (KStarPolygon rep q) GLOBAL o) as (_ & _ & _ & _ & X). destruct (kernel _ GLOBAL o) as [o1 [r|e]]; cbn in X; eauto.
  - pose proof (kernel_keeps (KEllipse rep) GLOBAL o) as (_ & _ & _ & _ & X). destruct (kernel _ GLOBAL o) as [o1 [r|e]]; cbn in X; eauto.
Qed.
Print Assumptions C29_safe_set_raises.
Theorem C29_safe_set_refuted : exists k o p, In p (rep_of k) /\ run k (new_obj k None (0, 0)) [OpPolygon OBSTACLE] = Some o /\
  snd (kernel k GLOBAL o) = Ret (Some (rep_of k)) /\ step k o (OpSetXr p OBSTACLE true) = Some (fst (kernel k GLOBAL o), Exn AttributeErr).
Proof.
  exists (KEllipse [(1, 0); (0, 1); (-1, 0)]). eexists. exists (1, 0). split; [left; reflexivity|]. split; [reflexivity|]. split; reflexivity.
Qed.
Print Assumptions C29_safe_set_refuted.
Example C29_example : get_xr (with_xr (3, 4) (new_obj (KEllipse []) (Some (static_new (Some (5, 6)) PI)) (0, 0))) GLOBAL = Ret (2, 2).
Proof. unfold get_xr. cbn [o_mm with_xr new_obj o_xr]. rewrite C28_transform_is_place. f_equal. unfold place, rotv, vadd. cbn [fst snd m_rot m_pos static_new]. rewrite cos_PI, sin_PI. apply pair_eq; lra. Qed.

(** C30 *)
Theorem C30_locations : forall loc,
  ~ (interior_point loc = true /\ exterior_point loc = true) /\
  (interior_point loc = false /\ exterior_point loc = false <-> loc = 0) /\
  (boundary_point loc = true <-> Rabs loc <= 1 / 100000000).
Proof.
  intros loc. unfold interior_point, exterior_point, boundary_point, np_isclose.
  replace (loc - 0) with loc by ring. rewrite Rabs_R0.
  destruct (Rltb_spec loc 0), (Rltb_spec 0 loc), (Rleb_spec (Rabs loc) (1 / 100000000 + 1 / 100000 * 0)); 
    (split; [intros [? ?]; try discriminate; lra|split; split; intros; try (destruct H); try discriminate; try lra; auto]).
Qed.
Print Assumptions C30_locations.
(** with a real-valued location (Ellipse) a boundary point can be an interior point as well *)
Theorem C30_boundary_exclusive_refuted : exists loc, boundary_point loc = true /\ interior_point loc = true.
Proof.
  exists (- 1 / 1000000000). split.
  - apply C30_locations. unfold Rabs. destruct (Rcase_abs _); lra.
  - unfold interior_point. destruct (Rltb_spec (- 1 / 1000000000) 0); [reflexivity|lra].
Qed.
Print Assumptions C30_boundary_exclusive_refuted.
(** exclusive for the locations of the default point_location (a sign), see C53 and C58 for the other classes *)
Theorem C30_boundary_exclusive_partial : forall x xr b loc, star_point_location x xr b = Ret loc ->
  (boundary_point loc = true -> interior_point loc = false /\ exterior_point loc = false) /\
  (loc = -1 \/ loc = 0 \/ loc = 1) /\
  (loc = -1 <-> dist x xr < dist b xr) /\ (loc = 1 <-> dist b xr < dist x xr).
Proof.
  intros x xr b loc. unfold star_point_location, distance_function. cbv zeta. rewrite (np_norm_norm (psub b xr)), (np_norm_norm (psub x xr)).
  change (norm (psub b xr)) with (dist b xr). change (norm (psub x xr)) with (dist x xr).
  pose proof (dist_nonneg b xr). pose proof (dist_nonneg x xr).
  destruct (Reqb_spec (dist b xr) 0); cbn [bind]; [discriminate|].
  intros HR. apply (f_equal (fun r => match r with Ret a => a | Exn _ => 0 end)) in HR. cbv beta iota in HR. subst loc.
  assert (P : 0 < dist b xr) by lra.
  assert (Q : (dist x xr / dist b xr) ^ 2 - 1 = (dist x xr - dist b xr) * ((dist x xr + dist b xr) / (dist b xr * dist b xr))) by (field; lra).
  assert (S : 0 < (dist x xr + dist b xr) / (dist b xr * dist b xr)) by (apply Rdiv_lt_0_compat; nra).
  rewrite Q. set (c := (dist x xr + dist b xr) / (dist b xr * dist b xr)) in *. unfold np_sign.
  assert (V : Rabs 1 = 1 /\ Rabs (-1) = 1) by (split; unfold Rabs; destruct (Rcase_abs _); lra).
  destruct (Rltb_spec 0 ((dist x xr - dist b xr) * c)); [|destruct (Rltb_spec ((dist x xr - dist b xr) * c) 0)].
  - split; [|split; [|split; split; intros; try lra; nra]]; [|auto].
    intros B. apply C30_locations in B. lra.
  - split; [|split; [|split; split; intros; try lra; nra]]; [|auto].
    intros B. apply C30_locations in B. lra.
  - split; [|split; [|split; split; intros; try lra; nra]]; [|auto].
    intros _. apply C30_locations. reflexivity.
Qed.
Print Assumptions C30_boundary_exclusive_partial.
Example C30_example : star_point_location (1, 0) (0, 0) (2, 0) = Ret (-1).
Proof.
  unfold star_point_location, distance_function. cbv zeta.
  assert (A : norm (psub (2, 0) (0, 0)) = 2) by (apply norm_eq; [lra|]; unfold norm2, dot, psub; cbn; unfold nsub; cbn; ring).
  assert (B : norm (psub (1, 0) (0, 0)) = 1) by (apply norm_eq; [lra|]; unfold norm2, dot, psub; cbn; unfold nsub; cbn; ring).
  rewrite (np_norm_norm (psub (2, 0) (0, 0))), (np_norm_norm (psub (1, 0) (0, 0))), A, B. destruct (Reqb_spec 2 0); [lra|]. cbn [bind]. unfold np_sign.
  destruct (Rltb_spec 0 ((1 / 2) ^ 2 - 1)); [lra|]. destruct (Rltb_spec ((1 / 2) ^ 2 - 1) 0); [reflexivity|lra].
Qed.

(** C31 *)
Theorem C31_reference_direction : forall m xr x fi fo, (fi = GLOBAL \/ fi = OBSTACLE) -> (fo = GLOBAL \/ fo = OBSTACLE) ->
  transform m x fi OBSTACLE <> Ret xr ->
  exists d tx txr k, reference_direction m xr x fi fo = Ret d /\ norm d = 1 /\
    transform m x fi fo = Ret tx /\ transform m xr OBSTACLE fo = Ret txr /\ 0 < k /\ vsub tx txr = smul k d /\
    forall fo', (fo' = GLOBAL \/ fo' = OBSTACLE) -> rotate m d fo fo' = reference_direction m xr x fi fo'.
Proof.
  intros m xr x fi fo Hi Ho N.
  assert (comp : forall f1 f2 f3 y z, good f1 -> good f2 -> good f3 -> transform m y f1 f2 = Ret z -> transform m y f1 f3 = transform m z f2 f3).
  { intros f1 f2 f3 y z G1 G2 G3 T. destruct m as [m|]; [|cbn in *; congruence].
    destruct G1 as [->| ->], G2 as [->| ->], G3 as [->| ->]; cbn in *; injection T as <-; try reflexivity.
    - rewrite affine_forward, affine_back, place_inv'. reflexivity.
    - rewrite affine_forward, affine_back, place_inv. reflexivity. }
  assert (O : good OBSTACLE) by (right; reflexivity).
  (* the unnormalised direction in any output frame *)
  assert (D : forall f, good f -> exists tx txr, transform m x fi f = Ret tx /\ transform m xr OBSTACLE f = Ret txr /\ vsub tx txr <> (0, 0) /\
     reference_direction m xr x fi f = Ret (smul (/ norm (vsub tx txr)) (vsub tx txr))).
  { intros f G. destruct (transform_good m x fi f Hi G) as [tx T]. destruct (transform_good m xr OBSTACLE f O G) as [txr T2].
    exists tx, txr. split; [exact T|]. split; [exact T2|].
    assert (Z : vsub tx txr <> (0, 0)).
    { intros Z. apply N. assert (tx = txr).
      { destruct tx, txr. unfold vsub in Z. cbn in Z. injection Z. intros. apply pair_eq; lra. }
      subst txr. pose proof (comp fi f OBSTACLE x tx Hi G O T) as C1.
      rewrite (transform_roundtrip m xr OBSTACLE f tx O G T2) in C1. exact C1. }
    split; [exact Z|]. unfold reference_direction. rewrite T, T2. cbn [bind]. rewrite !np_norm_norm.
    change (psub tx txr) with (vsub tx txr). pose proof (norm_pos _ Z). destruct (Reqb_spec (norm (vsub tx txr)) 0); [lra|]. reflexivity. }
  destruct (D fo Ho) as (tx & txr & T & T2 & Z & R1). pose proof (norm_pos _ Z) as P.
  exists (smul (/ norm (vsub tx txr)) (vsub tx txr)), tx, txr, (norm (vsub tx txr)).
  split; [exact R1|]. split; [|split; [exact T|split; [exact T2|split; [exact P|split]]]].
  - rewrite norm_smul, Rabs_pos_eq; [field; lra|]. left. apply Rinv_0_lt_compat. lra.
  - unfold smul. cbn [fst snd]. destruct (vsub tx txr) as [a b]. cbn [fst snd]. apply pair_eq; field; exact (Rgt_not_eq _ _ P).
  - intros fo' Ho'. destruct (D fo' Ho') as (ux & uxr & U & U2 & _ & R2). rewrite R2.
    destruct (rotate_good m (smul (/ norm (vsub tx txr)) (vsub tx txr)) fo fo' Ho Ho') as (a & E & H). rewrite E.
    rewrite (comp fi fo fo' x tx Hi Ho Ho' T) in U. rewrite (comp OBSTACLE fo fo' xr txr O Ho Ho' T2) in U2.
    rewrite (H _ _ _ _ U U2). rewrite rotv_norm. f_equal. unfold rotv, smul. cbn [fst snd]. apply pair_eq; ring.
Qed.
Print Assumptions C31_reference_direction.
(** at the reference point itself the result is not finite *)
Theorem C31_undefined_at_xr : forall m xr fo, (fo = GLOBAL \/ fo = OBSTACLE) -> reference_direction m xr xr OBSTACLE fo = Exn NotFinite.
Proof.
  intros m xr fo Ho. unfold reference_direction. destruct (transform_good m xr OBSTACLE fo (or_intror eq_refl) Ho) as [y E]. rewrite E. cbn [bind].
  rewrite np_norm_norm. change (norm (psub y y)) with (dist y y). rewrite dist_refl. destruct (Reqb_spec 0 0); [reflexivity|lra].
Qed.
Print Assumptions C31_undefined_at_xr.
Example C31_example : transform (Some (static_new (Some (5, 6)) PI)) (1, 2) OBSTACLE OBSTACLE <> Ret (0, 0).
Proof. cbn. intros H. injection H. lra. Qed.

(** C32: the angular part uses the unit vector from xr to x instead of the lever arm *)
Theorem C32_rigid_velocity_refuted : exists m xr x v u, lin_vel m = Vel (m_idx m) v /\
  vel_intertial_frame (Some m) xr x = Ret u /\
  u <> vadd v (smul (rot_vel m) (- snd (vsub x (m_pos m)), fst (vsub x (m_pos m)))).
Proof.
  exists (sinus_new None 0 false 0 0 1 0), (0, 0), (2, 0). eexists. exists (0, 1).
  split; [reflexivity|]. split.
  - cbn -[reference_direction cos freq sin]. unfold reference_direction. cbn [transform frame_eqb bind]. cbn [m_rot m_pos sinus_new].
    rewrite affine_forward. rewrite !np_norm_norm.
    assert (P : place 0 (0, 0) (0, 0) = (0, 0)) by (unfold place, rotv, vadd; rewrite cos_0, sin_0; cbn; apply pair_eq; lra).
    rewrite P. assert (A : norm (psub (2, 0) (0, 0)) = 2) by (apply norm_eq; [lra|]; unfold norm2, dot, psub; cbn; unfold nsub; cbn; ring).
    rewrite A. destruct (Reqb_spec 2 0); [lra|]. cbn [bind]. f_equal. unfold padd, scale, psub, rot_vel, sinus_new. cbn [fst snd m_class m_t m_rot].
    unfold nadd, nsub. cbn -[cos sin freq]. rewrite Rmult_0_r, cos_0, sin_0. apply pair_eq; lra.
  - cbn -[cos freq sin]. rewrite !Rmult_0_r, cos_0, sin_0. unfold vadd, smul, vsub. cbn. intros Z. injection Z. lra.
Qed.
Print Assumptions C32_rigid_velocity_refuted.
(** what is returned: linear velocity + angular velocity crossed with the unit reference direction; this is the
    rigid-body velocity when the obstacle does not rotate or the lever arm happens to be that unit vector *)
Theorem C32_velocity_partial : forall m xr x d idx v, reference_direction (Some m) xr x GLOBAL GLOBAL = Ret d -> lin_vel m = Vel idx v ->
  exists u, vel_intertial_frame (Some m) xr x = Ret u /\ u = vadd v (smul (rot_vel m) (- snd d, fst d)) /\
    (rot_vel m = 0 \/ d = vsub x (m_pos m) -> u = vadd v (smul (rot_vel m) (- snd (vsub x (m_pos m)), fst (vsub x (m_pos m))))).
Proof.
  intros m xr x d idx v D L. unfold vel_intertial_frame. rewrite D. cbn [bind]. rewrite L.
  assert (E : padd v (0 * 0 - rot_vel m * snd d, rot_vel m * fst d - 0 * 0) = vadd v (smul (rot_vel m) (- snd d, fst d)))
    by (unfold padd, vadd, smul; cbn [fst snd]; unfold nadd; cbn; apply pair_eq; ring).
  eexists. split; [reflexivity|]. split; [exact E|]. intros [Z|Z]; rewrite E.
  - rewrite Z. unfold vadd, smul. cbn [fst snd]. apply pair_eq; ring.
  - rewrite <- Z. reflexivity.
Qed.
Print Assumptions C32_velocity_partial.
Example C32_example : vel_intertial_frame None (0, 0) (2, 0) = Ret (0, 0).
Proof. reflexivity. Qed.
