(** Properties C21-C23 and C76: the random polygon generators of utils/cg.py. *)
From Coq Require Import Reals Lra List Permutation Lia.
From Verif Require Import Num Spec M_Cg M_ConePolygon M_Gen L_Gen W_Gen L_Geom.
Import ListNotations.
Open Scope R_scope.

(** C21 *)
Theorem C21_angle_steps : forall n irregularity u, (1 <= n)%nat -> 0 <= irregularity < 2 * PI / INR n ->
  (forall i, 0 <= u i < 1) ->
  exists steps, random_angle_steps n irregularity u = Gen steps /\ length steps = n /\
    (forall s, In s steps -> 0 < s) /\ rsum steps = 2 * PI.
Proof. exact angle_steps_ok. Qed.
Print Assumptions C21_angle_steps.
Theorem C21_rejects : forall center avg irr spik n u u0 g,
  (irr < 0 \/ 1 < irr \/ spik < 0 \/ 1 < spik) <->
  generate_star_polygon center avg irr spik n u u0 g = GenValueError.
Proof.
  intros. unfold generate_star_polygon.
  destruct (Rltb_spec irr 0), (Rltb_spec 1 irr); cbn [orb]; try (split; [reflexivity|]; tauto).
  destruct (Rltb_spec spik 0), (Rltb_spec 1 spik); cbn [orb]; try (split; [reflexivity|]; tauto).
  split; [lra|]. destruct (Nat.eqb n 0) eqn:E; [discriminate|].
  unfold random_angle_steps. rewrite E. cbv zeta. destruct (Reqb _ 0); discriminate.
Qed.
Print Assumptions C21_rejects.
(** all parameters in range except irregularity = 1 exactly *)
Theorem C21_star_polygon_partial : forall center avg irr spik n u u0 g,
  (1 <= n)%nat -> 0 <= avg -> 0 <= irr < 1 -> 0 <= spik <= 1 -> (forall i, 0 <= u i < 1) -> 0 <= u0 < 1 ->
  exists points steps start,
    generate_star_polygon center avg irr spik n u u0 g = Gen points /\ length points = n /\
    length steps = n /\ (forall s, In s steps -> 0 < s) /\ rsum steps = 2 * PI /\ 0 <= start < 2 * PI /\
    forall k, (k < n)%nat -> exists r, 0 <= r <= 2 * avg /\
      nth k points (0, 0) = vadd center (polar r (start + rsum (firstn k steps))).
Proof.
  intros center avg irr spik n u u0 g Hn Ha Hi Hs Hu Hu0. unfold generate_star_polygon.
  destruct (Rltb_spec irr 0); [lra|]. destruct (Rltb_spec 1 irr); [lra|]. cbn [orb].
  destruct (Rltb_spec spik 0); [lra|]. destruct (Rltb_spec 1 spik); [lra|]. cbn [orb].
  destruct (Nat.eqb_spec n 0); [lia|].
  pose proof PI_RGT_0. assert (0 < INR n) by (apply lt_0_INR; lia).
  assert (0 < 2 * PI / INR n) by (apply Rdiv_lt_0_compat; lra).
  destruct (angle_steps_ok n (irr * (2 * PI / INR n)) u Hn) as (steps & E & L & P & S); [split; nra|auto|].
  rewrite E. exists (star_points center avg (spik * avg) g 0 (uniform 0 (2 * PI) u0) steps), steps, (uniform 0 (2 * PI) u0).
  destruct (star_points_spec center avg (spik * avg) g Ha steps 0 (uniform 0 (2 * PI) u0)) as [L2 N].
  repeat split; auto.
  - rewrite L2; auto.
  - unfold uniform. nra.
  - unfold uniform. nra.
  - intros k Hk. apply N. rewrite L. auto.
Qed.
Print Assumptions C21_star_polygon_partial.
(** irregularity = 1 is accepted, but draws at the lower end make it divide by zero *)
Theorem C21_irregularity_one_refuted : exists n u, (1 <= n)%nat /\ (forall i, 0 <= u i < 1) /\
  forall center avg u0 g, generate_star_polygon center avg 1 0 n u u0 g = GenZeroDivision.
Proof.
  exists 1%nat, (fun _ => 0). split; auto. split; [intros; lra|]. intros.
  unfold generate_star_polygon, random_angle_steps. cbn [Nat.eqb].
  destruct (Rltb_spec 1 0); [lra|]. destruct (Rltb_spec 1 1); [lra|]. destruct (Rltb_spec 0 0); [lra|]. cbn [orb]. cbv zeta.
  rewrite cumsum_rsum. pose proof PI_RGT_0.
  replace (rsum _ / (2 * PI)) with 0; [destruct (Reqb_spec 0 0); [reflexivity|lra]|].
  unfold rsum, uniform. simpl. field. lra.
Qed.
Print Assumptions C21_irregularity_one_refuted.
Example C21_example : 0 <= 1/2 < 2 * PI / INR 5.
Proof. pose proof PI2_3_2. unfold PI2 in *. simpl INR. lra. Qed.

(** C22: n vertices, mean at the origin, the extent in x (y) is the spread of the x (y) draws times box[0],
    so every coordinate is within box[0] of the origin *)
Theorem C22_centred_and_spread : forall box ux uy bx by_ shuffle dx dy,
  (2 <= length ux)%nat -> length uy = length ux -> 0 <= fst box ->
  (forall l, Permutation (shuffle l) l) -> is_spread ux dx -> is_spread uy dy ->
  exists l, generate_convex_polygon box ux uy bx by_ shuffle = Gen l /\ length l = length ux /\
    mean l = (0, 0) /\ is_spread (map fst l) (fst box * dx) /\ is_spread (map snd l) (fst box * dy).
Proof. exact convex_gen_spec. Qed.
Print Assumptions C22_centred_and_spread.
Theorem C22_within_box0 : forall box ux uy bx by_ shuffle dx dy l,
  (2 <= length ux)%nat -> length uy = length ux -> 0 <= fst box ->
  (forall l, Permutation (shuffle l) l) -> is_spread ux dx -> is_spread uy dy ->
  (forall x, In x ux -> 0 <= x <= 1) -> (forall x, In x uy -> 0 <= x <= 1) ->
  generate_convex_polygon box ux uy bx by_ shuffle = Gen l ->
  forall p, In p l -> Rabs (fst p) <= fst box /\ Rabs (snd p) <= fst box.
Proof. exact convex_gen_bound. Qed.
Print Assumptions C22_within_box0.
Example C22_example : is_spread [0; 1/2; 9/10] (9/10).
Proof.
  split; [exists (9/10), 0; simpl; repeat split; auto; lra|].
  intros a b Ha Hb. simpl in Ha, Hb. decompose [or] Ha; decompose [or] Hb; subst; try tauto; lra.
Qed.

(** C23: false of the code (the y pool is scaled with box[0]) *)
Theorem C23_in_box_refuted : exists box ux uy bx by_ sh l, (length ux = 3 /\ length uy = 3)%nat /\ 0 < fst box /\ 0 < snd box /\
  (forall x, In x ux -> 0 <= x < 1) /\ (forall x, In x uy -> 0 <= x < 1) /\ (forall l, Permutation (sh l) l) /\
  generate_convex_polygon box ux uy bx by_ sh = Gen l /\ exists p, In p l /\ snd box < Rabs (snd p).
Proof. exact w_C23. Qed.
Print Assumptions C23_in_box_refuted.
(** it holds when the box is at least as high as wide *)
Theorem C23_in_box_partial : forall box ux uy bx by_ shuffle l,
  (2 <= length ux)%nat -> length uy = length ux -> 0 <= fst box <= snd box ->
  (forall l, Permutation (shuffle l) l) ->
  (forall x, In x ux -> 0 <= x <= 1) -> (forall x, In x uy -> 0 <= x <= 1) ->
  generate_convex_polygon box ux uy bx by_ shuffle = Gen l ->
  forall p, In p l -> Rabs (fst p) <= fst box /\ Rabs (snd p) <= snd box.
Proof.
  intros box ux uy bx by_ sh l Hn HL Hb Hsh Ux Uy E p Hp.
  destruct (spread_exists ux) as (dx & Hdx); [intros ->; simpl in Hn; lia|].
  destruct (spread_exists uy) as (dy & Hdy); [intros ->; simpl in HL; lia|].
  destruct (convex_gen_bound box ux uy bx by_ sh dx dy l Hn HL ltac:(lra) Hsh Hdx Hdy Ux Uy E p Hp). lra.
Qed.
Print Assumptions C23_in_box_partial.

(** C76: convex and counter-clockwise whenever no edge vector is zero and no two have the same direction *)
Theorem C76_convex_partial : forall box ux uy bx by_ shuffle,
  (2 <= length ux)%nat -> length uy = length ux -> 0 <= fst box -> (forall l, Permutation (shuffle l) l) ->
  let vecs := combine (drawn_x box ux bx) (shuffle (drawn_x box uy by_)) in
  Forall (fun u => u <> (0, 0)) vecs -> ForallOrdPairs (fun u v => ~ (cross u v = 0 /\ 0 < dot u v)) vecs ->
  exists l, generate_convex_polygon box ux uy bx by_ shuffle = Gen l /\ convex_ccw l.
Proof. exact convex_gen_convex. Qed.
Print Assumptions C76_convex_partial.
Example C76_example : let vecs := combine (drawn_x (4, 4) [0; 1/4; 3/4] (fun _ => false)) (drawn_x (4, 4) [0; 1/4; 3/4] (fun _ => true)) in
  Forall (fun u => u <> (0, 0)) vecs /\ ForallOrdPairs (fun u v => ~ (cross u v = 0 /\ 0 < dot u v)) vecs.
Proof.
  rewrite !drawn_ex. cbn [combine]. split.
  - repeat constructor; intros E; injection E; intros; lra.
  - repeat constructor; intros [E F]; unv; lra.
Qed.
(** with two edges in the same direction the separate sorts mispair components; the result is not convex ccw *)
Theorem C76_convex_refuted : exists box ux uy bx by_ sh l, (length ux = 3 /\ length uy = 3)%nat /\ 0 < fst box /\
  (forall x, In x ux -> 0 <= x < 1) /\ (forall x, In x uy -> 0 <= x < 1) /\ (forall l, Permutation (sh l) l) /\
  generate_convex_polygon box ux uy bx by_ sh = Gen l /\ ~ convex_ccw l.
Proof. exact w_C76. Qed.
Print Assumptions C76_convex_refuted.
