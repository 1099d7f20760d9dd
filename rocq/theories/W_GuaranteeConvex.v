(** The scene of C100 with make_convex on: every obstacle is replaced by its convex hull. *)
From Coq Require Import String Reals List Bool Arith ZArith Lia Lra Permutation.
From Verif Require Import Num Spec S_Guarantee M_Cg M_Motion M_Obstacle M_Clusters L_Clusters P_Clusters M_StarHull M_Starify L_Geom L_Ellipse L_Hull L_HullDisjoint L_Cg L_Cone P_Cg P_Cone
  L_Starify P_Starify P_StarifyResult P_KernelPoints P_StarHull L_Guarantee P_Guarantee P_GuaranteeConvex W_Starify W_Guarantee.
Import ListNotations.
Open Scope R_scope.

Definition sq_outline (o : bool) : geo := obst_polygon sq_methods sq_shapely (Combination [o] (Some (gunion [(Some o, in_hull (KPpts o))])) (centre o) (Some 0%Z)).
Definition sq_convex (o : bool) : geo := (fst (sq_outline o), hull_region (gden (sq_outline o))).
Definition sq_replaced (o : bool) : cluster bool geo :=
  Cluster (name_of [Some (if o then 2 else 1)%Z]) [o] (Some (HullPolygon (sq_convex o) (centre o) (Some (if o then 4 else 3)%Z))) (Some (KPo o)) (Some (sq_adm o)) (Some (sq_outline o)).
Definition sqc_answer : answer bool geo := Answer [sq_replaced false; sq_replaced true] COMPLETE 1 None 4.
Lemma sqc_call : cluster_and_starify sq_methods sq_shapely (nodup Nat.eq_dec) (sq_opts true) 0 0 Sx Sg [false; true] = Val sqc_answer.
Proof.
  unfold cluster_and_starify. cbn [sq_opts op_workspace]. fold (sq_opts true). rewrite sq_prepare. cbn [obind first_clusters]. rewrite sq_first. cbn [obind]. rewrite sq_first. cbn [obind].
  cbn [sq_opts op_return_history]. fold (sq_opts true).
  assert (E : get_intersection_clusters sq_methods sq_shapely (nodup Nat.eq_dec) [sq_cluster false (0 + 1); sq_cluster true (0 + 1 + 1)] =
              Val ([fst (read_polygon sq_methods sq_shapely (sq_cluster false 1)); fst (read_polygon sq_methods sq_shapely (sq_cluster true 2))], false)).
  { rewrite gic_value; [|intros c [<-|[<-|[]]]; cbn; congruence]. reflexivity. }
  rewrite E. reflexivity.
Qed.
Lemma sq_hulls g h : sh_convex_hull sq_shapely g = Ret h -> forall z, gden h z <-> hull_region (gden g) z.
Proof.
  intros E z. cbn in E. injection E as <-. unfold gden at 1. cbn [fst snd]. split; [tauto|]. intros H. split; [exact H|].
  destruct g as [[o|] r]; cbn [fst]; [|exact I]. destruct H as (ps & Hp & Hz). apply (hull_in_convex (on_side o) ps); [apply on_side_convex| |exact Hz]. intros q Hq. apply (Hp q Hq).
Qed.
Lemma sq_bounded o p : gden (sq_convex o) p -> fst p <= 250.
Proof.
  intros [(ps & Hp & Hz) _]. apply (hull_in_convex (fun q => fst q <= 250) ps); [| |exact Hz].
  - intros u v w Hu Hv (t & T & ->). destruct u as [u1 u2], v as [v1 v2]. unv. cbn in *. nra.
  - intros q Hq. destruct (Hp q Hq) as [(g & Hg & Hd) _]. cbn [sh_union] in Hg. 
    destruct Hg as [<-|[<-|[]]].
    + destruct Hd as [Hd _]. apply square_box in Hd. destruct o, q; cbn in Hd; cbn; lra.
    + destruct Hd as [(g & [<-|[]] & [Hd _]) _]. cbn [snd] in Hd. apply (hull_in_convex (fun q => fst q <= 250) (KPpts o)); [| |exact Hd].
      * intros u v w Hu Hv (t & T & ->). destruct u as [u1 u2], v as [v1 v2]. unv. cbn in *. nra.
      * intros z Hz'. unfold KPpts in Hz'. apply in_app_iff in Hz' as [Hz'|Hz'].
        -- apply nodup_In in Hz'. cbn in Hz'. destruct o; cbn in Hz'; repeat (destruct Hz' as [<-|Hz']; [cbn; lra|]); destruct Hz'.
        -- assert (Q : dist (centre o) z < 1 / 4). { apply Rlt_trans with (1 / 9); [|lra]. apply KPo_near, in_hull_mem. destruct (KPo o) as [[a b] c]. exact Hz'. }
           apply near_centre in Q. destruct o, z; cbn in Q; cbn; lra.
Qed.

(** the scene meets every hypothesis of C107; both obstacles are replaced *)
Example C107_example :
  cluster_and_starify sq_methods sq_shapely (nodup Nat.eq_dec) (sq_opts true) 0 0 Sx Sg [false; true] = Val sqc_answer /\
  a_flag sqc_answer = COMPLETE /\ uncut (sq_opts true) sqc_answer /\ op_make_convex (sq_opts true) = true /\
  faithful_geometry sq_methods sq_shapely gden (sq_opts true) Sx Sg [false; true] /\ convex_obstacles sq_methods sq_body Sx Sg [false; true] /\
  (forall g h, sh_convex_hull sq_shapely g = Ret h -> forall z, gden h z <-> hull_region (gden g) z) /\
  (forall o p, gden (ob_polygon sq_methods o) p <-> sq_body o p) /\ (forall g h, sh_intersects sq_shapely g h = false -> disjoint (gden g) (gden h)) /\
  (forall o q, q = Sx \/ q = Sg -> ~ interior (gden (sq_convex o)) q) /\
  exists oa ob, map c_obstacle (a_clusters sqc_answer) = [Some oa; Some ob] /\
    disjoint (obst_region gden sq_body oa) (obst_region gden sq_body ob) /\ convex (obst_region gden sq_body oa) /\ convex (obst_region gden sq_body ob) /\
    (exists p, obst_region gden sq_body oa p /\ ~ sq_body false p) /\ (exists p, obst_region gden sq_body ob p /\ ~ sq_body true p) /\
    ~ interior (obst_region gden sq_body oa) Sx /\ ~ interior (obst_region gden sq_body ob) Sg.
Proof.
  assert (Un : uncut (sq_opts true) sqc_answer) by (intros m Hm; discriminate).
  assert (Cov : forall o p, gden (ob_polygon sq_methods o) p <-> sq_body o p) by (intros o p; split; [intros [Hp _]; exact Hp|intros Hp; split; [exact Hp|apply sq_on_side, Hp]]).
  assert (Dj : forall g h, sh_intersects sq_shapely g h = false -> disjoint (gden g) (gden h)).
  { intros [[[]|] r] [[[]|] r'] E; try discriminate; intros p [[_ A] [_ B]]; cbn in A, B; lra. }
  assert (Far : forall o q, q = Sx \/ q = Sg -> ~ interior (gden (sq_convex o)) q).
  { intros o q Hq (r & R0 & Hr). assert (B := sq_bounded o q (Hr q ltac:(rewrite dist_refl; exact R0))). destruct Hq as [->| ->]; cbn in B; lra. }
  split; [exact sqc_call|]. split; [reflexivity|]. split; [exact Un|]. split; [reflexivity|]. split; [apply sq_geometry|]. split; [exact sq_obstacles|]. split; [exact sq_hulls|].
  split; [exact Cov|]. split; [exact Dj|]. split; [exact Far|].
  pose proof (C107_guarantee sq_methods sq_shapely (nodup Nat.eq_dec) gden sq_body (nodup pt_eq_dec) (sq_opts true) Sx Sg [false; true] sq_setl sq_symmetric (fun l p => nodup_In pt_eq_dec l p)
    (sq_geometry true) sq_obstacles sq_hulls (fun o p _ => proj2 (Cov o p)) 0 0 sqc_answer sqc_call ltac:(discriminate) Un) as Gr.
  assert (Tg : forall cl a1 a2 a3 o, In cl (a_clusters sqc_answer) -> c_kernel_points cl = Some (a1, a2, a3) -> In o (c_obstacles cl) ->
     hull_right sq_methods gden (nodup pt_eq_dec) o a1 a2 a3 /\ forall k, In k [a1; a2; a3] -> tangents_of (ob_tangent_points sq_methods o) (sq_body o) k).
  { intros cl a1 a2 a3 o Hc Ek Ho. split; [apply sq_hull_right|]. pose proof (sq_triangle_tangents o) as T.
    assert (E : KPo o = (a1, a2, a3)) by (destruct Hc as [<-|[<-|[]]]; destruct Ho as [<-|[]]; cbn in Ek; injection Ek as Ek; exact Ek). rewrite E in T. exact T. }
  pose proof (C107_disjoint sq_methods sq_shapely (nodup Nat.eq_dec) gden sq_body (nodup pt_eq_dec) (sq_opts true) Sx Sg [false; true] sq_setl sq_symmetric (fun l p => nodup_In pt_eq_dec l p)
    (sq_geometry true) sq_obstacles sq_hulls (fun o p _ => proj2 (Cov o p)) (fun o p _ => proj1 (Cov o p)) Dj 0 0 sqc_answer sqc_call ltac:(discriminate) Un Tg) as Gd.
  assert (One : forall i o, nth_error (a_clusters sqc_answer) i = Some (sq_replaced o) -> exists ob, c_obstacle (sq_replaced o) = Some ob /\ convex (obst_region gden sq_body ob) /\
     (exists p, obst_region gden sq_body ob p /\ ~ sq_body o p) /\ ~ interior (obst_region gden sq_body ob) Sx /\ ~ interior (obst_region gden sq_body ob) Sg).
  { intros i o Ho. destruct (Gr i _ Ho) as (ob & a1 & a2 & a3 & adm & E1 & E2 & E3 & _ & Hm & _ & Cv & St). exists ob. split; [exact E1|].
    assert (Ek : KPo o = (a1, a2, a3)) by (cbn in E2; injection E2 as E2; exact E2). assert (Ea : adm = sq_adm o) by (cbn in E3; injection E3 as <-; reflexivity). subst adm.
    pose proof (sq_interior o) as Int. pose proof (KPo_mean o) as Mn. rewrite Ek in Int, Mn. cbn [pts_of] in Int.
    destruct St as (St & Ker & Out); [intros o' Ho'; apply (Tg (sq_replaced o) a1 a2 a3 o'); [apply nth_error_In with i, Ho|exact E2|exact Ho']|].
    destruct (Out (sq_directions Sx o (or_introl eq_refl)) (sq_directions Sg o (or_intror eq_refl)) Int) as [_ O].
    assert (Eob : ob = HullPolygon (sq_convex o) (centre o) (Some (if o then 4 else 3)%Z)) by (cbn in E1; injection E1 as <-; reflexivity).
    split; [apply (Cv _ _ _ Eob)|]. split.
    - exists (centre o). split; [rewrite <- Mn; apply Ker, Hm|]. intros Hb. apply square_box in Hb. destruct o; cbn in Hb; lra.
    - apply O. intros h p d Eh q Hq _. rewrite Eob in Eh. injection Eh as <- _ _. apply Far, Hq. }
  destruct (One 0%nat false eq_refl) as (oa & Ea & Ca & Pa & Xa & Ga). destruct (One 1%nat true eq_refl) as (ob & Eb & Cb & Pb & Xb & Gb).
  exists oa, ob. split; [cbn [map a_clusters sqc_answer]; rewrite Ea, Eb; reflexivity|]. split; [apply (Gd 0%nat 1%nat (sq_replaced false) (sq_replaced true)); auto|]. auto 12.
Qed.
