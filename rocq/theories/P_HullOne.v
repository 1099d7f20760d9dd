(** C109: for a single kernel point polygon_kernel_starshaped_hull returns exactly the star-shaped hull *)
From Coq Require Import QArith Reals Lra Lia Psatz List Bool Arith ZArith.
From Verif Require Import Num Spec M_Cg M_Motion M_Obstacle M_PolHull S_PolHull S_HullOne L_Geom L_PolHull L_PolHull2 L_PolHull5 L_PolHull6 W_PolWorld W_PolTransfer W_PolTriangles W_HullOne P_PolHull.
Import ListNotations.
Open Scope R_scope.

(** the vertex list goes once round the kernel point and the triangles from the kernel point over its edges make up the
    polygon together with all segments from the kernel point to it *)
Theorem C109_one_point_hull : forall V A k W, encloses V A -> faithful A [k] W -> roomy V k -> (forall v, In v V -> plain (pw_meet W (line_seg (k : pt R) v))) ->
  exists l, polygon_kernel_starshaped_hull W [k] V = Ret l /\
    (forall x y, In (x, y) (cyc_edges l) -> 0 <= area2 k x y) /\
    (forall x y x' y' p, In (x, y) (cyc_edges l) -> In (x', y') (cyc_edges l) ->
       0 < area2 k x p -> 0 < area2 k p y -> 0 < area2 k x' p -> 0 < area2 k p y' -> x = x' /\ y = y') /\
    forall p, fan k l p <-> star_of k A p.
Proof.
  intros V A k W Enc F Ro Pl. pose proof (ro_gp V k Ro) as GP. destruct (one_run V A k W Enc F Ro Pl) as (ws & bs & i & Rw & Rn & Run).
  exists (concat (map snd bs)). split; [apply Run|]. { apply (edges_area V A k Enc GP ws bs i Rw Rn). } { apply (long_list V A k Enc GP ws bs i Rw Rn). }
  split; [apply (edges_area V A k Enc GP ws bs i Rw Rn)|]. split; [apply (fan_once V A k Enc GP ws bs i Rw Rn)|].
  intros p. split; [apply (fan_in V A k Enc GP ws bs i Rw Rn)|apply (fan_all V A k Enc GP ws bs i Rw Rn)].
Qed.
Print Assumptions C109_one_point_hull.

(** that region is the least one that contains the polygon and is star-shaped from the kernel point *)
Theorem C109_least : forall V A k W l, encloses V A -> faithful A [k] W -> roomy V k -> (forall v, In v V -> plain (pw_meet W (line_seg (k : pt R) v))) ->
  polygon_kernel_starshaped_hull W [k] V = Ret l ->
  (forall p, A p -> fan k l p) /\ starshaped_from (fan k l) k /\
  forall B, starshaped_from B k -> (forall p, A p -> B p) -> forall p, fan k l p -> B p.
Proof.
  intros V A k W l Enc F Ro Pl E. destruct (C109_one_point_hull V A k W Enc F Ro Pl) as (l' & E' & _ & _ & H). rewrite E in E'. injection E' as <-.
  split; [|split].
  - intros p Hp. apply H. exists p. split; auto. apply on_seg_r.
  - intros p q Hp Hq. apply H in Hp as (a & Ha & (t & Ht & ->)). apply H. exists a. split; auto. destruct Hq as (s & Hs & ->). exists (s * t). split; [nra|]. unv. apply pair_eq; ring.
  - intros B HB HA p Hp. apply H in Hp as (a & Ha & Hs). apply (HB a); auto.
Qed.
Print Assumptions C109_least.

(** the dart of C90 seen from a point in its notch, which becomes a vertex of the result, and from a point inside its
    upper arm, where the ray towards the tip of the lower arm leaves the polygon and the place where it does so becomes a vertex *)
Lemma dart_room k : roomyb dart k = true -> (forall v, In v dart -> pt_eqb (fst (line_seg k v)) (snd (line_seg k v)) = false) ->
  let W := tri_world dart_tris [k] in encloses (map qp dart) (tri_region dart_tris) /\ faithful (tri_region dart_tris) [qp k] W /\ roomy (map qp dart) (qp k) /\
  (forall v, In v (map qp dart) -> plain (pw_meet W (line_seg (qp k) v))).
Proof.
  intros Hr Hs W. split; [apply dart_encloses|]. split; [apply (tri_faithful dart_tris [k])|]. split; [apply roomyb_R; auto|].
  intros v Hv. apply in_map_iff in Hv as (v' & <- & Hv). apply pieces_plain. rewrite <- t_line_seg. unfold q2s. cbn [fst snd]. intros E.
  apply pt_eqb_true in E. rewrite t_pt_eqb, Hs in E; auto. discriminate.
Qed.
Lemma dart_run2 : polygon_kernel_starshaped_hull (tri_world dart_tris [(2, 21 # 10)%Q]) (map qp [(2, 21 # 10)%Q]) (map qp dart) = Ret (map qp [(3, -3); (123 # 61, 123 # 61); (3, 3); (-2, 0)]%Q).
Proof. rewrite tri_run. vm_compute (polygon_kernel_starshaped_hull _ _ _). reflexivity. Qed.
Example C109_example : forall k l, In (k, l) [((2, 1), [(3, -3); (2, 1); (3, 3); (-2, 0)]); ((2, 21 # 10), [(3, -3); (123 # 61, 123 # 61); (3, 3); (-2, 0)])]%Q ->
  let V := map qp dart in let A := tri_region dart_tris in
  exists W, encloses V A /\ faithful A [qp k] W /\ roomy V (qp k) /\ (forall v, In v V -> plain (pw_meet W (line_seg (qp k) v))) /\
    polygon_kernel_starshaped_hull W [qp k] V = Ret (map qp l).
Proof.
  intros k l H V A. exists (tri_world dart_tris [k]).
  assert (G : encloses V A /\ faithful A [qp k] (tri_world dart_tris [k]) /\ roomy V (qp k) /\ (forall v, In v V -> plain (pw_meet (tri_world dart_tris [k]) (line_seg (qp k) v)))).
  { destruct H as [H|[H|[]]]; injection H as <- <-; (apply dart_room; [vm_compute; reflexivity|]); intros v Hv; repeat destruct Hv as [<-|Hv]; try destruct Hv; vm_compute; reflexivity. }
  destruct G as (G1 & G2 & G3 & G4). repeat (split; [assumption|]).
  destruct H as [H|[H|[]]]; injection H as <- <-; [exact dart_run|exact dart_run2].
Qed.

(** *** C110 a polygon that is star-shaped from the kernel point is its own hull *)
Theorem C110_own_hull_partial : forall V A k W, encloses V A -> faithful A [k] W -> roomy V k -> (forall v, In v V -> plain (pw_meet W (line_seg (k : pt R) v))) ->
  starshaped_from A k -> exists l, polygon_kernel_starshaped_hull W [k] V = Ret l /\ forall p, fan k l p <-> A p.
Proof.
  intros V A k W Enc F Ro Pl St. destruct (C109_one_point_hull V A k W Enc F Ro Pl) as (l & E & _ & _ & H). exists l. split; auto.
  intros p. rewrite H. split; [intros (a & Ha & Hs); apply (St a); auto|]. intros Hp. exists p. split; auto. apply on_seg_r.
Qed.
Print Assumptions C110_own_hull_partial.
Lemma dart_region x : tri_region dart_tris x <-> (0 <= 3 * fst x + 5 * snd x + 6 /\ fst x + snd x <= 0 /\ snd x <= 0) \/ (0 <= snd x /\ fst x <= snd x /\ 5 * snd x <= 3 * fst x + 6).
Proof.
  assert (T1 : tri_in ((-2, 0), (3, -3), (0, 0))%Q x <-> (0 <= 3 * fst x + 5 * snd x + 6 /\ fst x + snd x <= 0 /\ snd x <= 0)).
  { destruct x as [x y]. cbn [tri_in]. unfold in_triangle_of, qp, Q2R. unv. cbn. lra. }
  assert (T2 : tri_in ((-2, 0), (0, 0), (3, 3))%Q x <-> (0 <= snd x /\ fst x <= snd x /\ 5 * snd x <= 3 * fst x + 6)).
  { destruct x as [x y]. cbn [tri_in]. unfold in_triangle_of, qp, Q2R. unv. cbn. lra. }
  rewrite <- T1, <- T2. unfold tri_region, dart_tris. split.
  - intros (s & [<-|[<-|[]]] & Hs); auto.
  - intros [Hs|Hs]; eexists; (split; [|exact Hs]); cbn; auto.
Qed.
Lemma dart_star k : tri_region dart_tris k -> fst k <= snd k -> fst k + snd k <= 0 -> starshaped_from (tri_region dart_tris) k.
Proof.
  intros Hk K1 K2 p r Hp (t & Ht & ->). rewrite dart_region in *. destruct p as [x y], k as [a b]. unfold along, vadd, smul, vsub. cbn [fst snd] in *.
  assert (G : forall c d, 0 <= c -> 0 <= d -> 0 <= (1 - t) * c + t * d). { intros c d Hc Hd. pose proof (Rmult_le_pos (1 - t) c). pose proof (Rmult_le_pos t d). lra. }
  pose proof (G (3 * a + 5 * b + 6) (3 * x + 5 * y + 6)) as G1. pose proof (G (3 * a + 6 - 5 * b) (3 * x + 6 - 5 * y)) as G2.
  pose proof (G (- (a + b)) (- (x + y))) as G3. pose proof (G (b - a) (y - x)) as G4.
  assert (E1 : 0 <= 3 * a + 5 * b + 6) by lra. assert (E2 : 0 <= 3 * a + 6 - 5 * b) by lra.
  assert (F1 : 0 <= 3 * x + 5 * y + 6) by lra. assert (F2 : 0 <= 3 * x + 6 - 5 * y) by lra.
  specialize (G1 E1 F1). specialize (G2 E2 F2).
  destruct Hp as [Hp|Hp].
  - assert (G5 := G3 ltac:(lra) ltac:(lra)). destruct (Rle_dec (b + t * (y - b)) 0); [left|right]; lra.
  - assert (G5 := G4 ltac:(lra) ltac:(lra)). destruct (Rle_dec (b + t * (y - b)) 0); [left|right]; lra.
Qed.
Lemma dart_run3 : polygon_kernel_starshaped_hull (tri_world dart_tris [(-1 # 2, 1 # 5)%Q]) (map qp [(-1 # 2, 1 # 5)%Q]) (map qp dart) = Ret (map qp [(3, -3); (0, 0); (3, 3); (-2, 0)]%Q).
Proof. rewrite tri_run. vm_compute (polygon_kernel_starshaped_hull _ _ _). reflexivity. Qed.
Lemma dart_run4 : polygon_kernel_starshaped_hull (tri_world dart_tris [(-1 # 2, -1 # 2)%Q]) (map qp [(-1 # 2, -1 # 2)%Q]) (map qp dart) = Ret (map qp [(3, -3); (3, 3); (-2, 0)]%Q).
Proof. rewrite tri_run. vm_compute (polygon_kernel_starshaped_hull _ _ _). reflexivity. Qed.

(** the dart is star-shaped from a point behind its notch *)
Example C110_example : let k := (-1 # 2, 1 # 5)%Q in let V := map qp dart in let A := tri_region dart_tris in
  exists W, encloses V A /\ faithful A [qp k] W /\ roomy V (qp k) /\ (forall v, In v V -> plain (pw_meet W (line_seg (qp k) v))) /\ starshaped_from A (qp k) /\
    polygon_kernel_starshaped_hull W [qp k] V = Ret (map qp [(3, -3); (0, 0); (3, 3); (-2, 0)]%Q).
Proof.
  intros k V A. exists (tri_world dart_tris [k]).
  destruct (dart_room k) as (G1 & G2 & G3 & G4); [vm_compute; reflexivity|intros v Hv; repeat destruct Hv as [<-|Hv]; try destruct Hv; vm_compute; reflexivity|].
  repeat (split; [assumption|]). split; [|exact dart_run3].
  apply dart_star; [apply dart_region|..]; unfold k, qp, Q2R; cbn; lra.
Qed.

(** from a point in line with an edge of the notch it is too, but the notch is lost *)
Theorem C110_in_line_refuted : exists V A k W l p, encloses V A /\ faithful A [k] W /\ (forall v, In v V -> plain (pw_meet W (line_seg (k : pt R) v))) /\
  starshaped_from A k /\ A k /\ polygon_kernel_starshaped_hull W [k] V = Ret l /\ fan k l p /\ ~ A p.
Proof.
  set (k := (-1 # 2, -1 # 2)%Q). exists (map qp dart), (tri_region dart_tris), (qp k), (tri_world dart_tris [k]), (map qp [(3, -3); (3, 3); (-2, 0)]%Q), (2, 0).
  assert (Ak : tri_region dart_tris (qp k)). { apply dart_region. unfold k, qp, Q2R. cbn. lra. }
  split; [apply dart_encloses|]. split; [apply (tri_faithful dart_tris [k])|]. split.
  { intros v Hv. apply in_map_iff in Hv as (v' & <- & Hv). apply pieces_plain. rewrite <- t_line_seg. unfold q2s. cbn [fst snd]. intros E.
    apply pt_eqb_true in E. rewrite t_pt_eqb in E. repeat destruct Hv as [<-|Hv]; try destruct Hv; vm_compute in E; discriminate. }
  split; [apply dart_star; auto; unfold k, qp, Q2R; cbn; lra|]. split; [exact Ak|]. split; [exact dart_run4|]. split.
  - exists (qp (3, -3)%Q), (qp (3, 3)%Q). split; [cbn; auto|]. apply tri_seg. exists (3, 1 / 5). split.
    + exists (8 / 15). split; [lra|]. unfold qp, Q2R. unv. cbn. apply pair_eq; lra.
    + exists (5 / 7). split; [lra|]. unfold k, qp, Q2R. unv. cbn. apply pair_eq; lra.
  - rewrite dart_region. cbn. lra.
Qed.
Print Assumptions C110_in_line_refuted.
