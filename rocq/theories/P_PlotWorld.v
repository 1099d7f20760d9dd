(** Property C133: the pictures of clusters. *)
From Coq Require Import String Reals List Bool Arith Lia Lra.
From Verif Require Import Num Spec M_Cg M_Motion M_Obstacle M_Polygon M_Plot M_PlotWorld L_Geom P_Plot.
Import ListNotations.
Local Open Scope R_scope.

(** the handles show the obstacle in the global frame: [picture] of C121, or all polygons of a combination and its reference point *)
Definition depicts (ref : bool) (o : obst) (h : handles) : Prop :=
  match o with
  | OPrim d => picture d GLOBAL ref false h
  | OComb c => exists ps, to_show (cb_polygon c) = Some ps /\ h = map patch ps ++ [shown ref (AMark (cb_xr c)); None]
  end.
(** its polygon is made of polygons *)
Definition polygonal (o : obst) : Prop := match o with OPrim _ => True | OComb c => to_show (cb_polygon c) <> None end.

Lemma obst_depicts rand o ref : polygonal o -> exists h, draw_obst rand o ref false = Ret h /\ depicts ref o h.
Proof.
  destruct o as [d|c]; cbn [polygonal draw_obst depicts]; intros P.
  - apply (C121_draw_shows_partial d GLOBAL ref false rand). discriminate.
  - destruct (to_show (cb_polygon c)) as [ps|] eqn:E; [|congruence]. unfold comb_draw, comb_init_plot. rewrite C122_shapely_partial, E. cbn [bind comb_update_plot]. eexists. split; [reflexivity|]. exists ps. auto.
Qed.
Lemma artists_app a b : artists (a ++ b) = artists a ++ artists b.
Proof. apply flat_map_app. Qed.
Lemma all_depicted rand os : forall l, Forall polygonal os -> exists hs, draw_all rand l os = Ret (l ++ artists (concat hs)) /\ Forall2 (depicts false) os hs.
Proof.
  induction os as [|o r IH]; intros l F; cbn [draw_all].
  - exists []. cbn. rewrite app_nil_r. auto.
  - inversion_clear F as [|? ? Po Pr]. destruct (obst_depicts rand o false Po) as (h & E & D). unfold add_drawing. rewrite E. cbn [bind]. destruct (IH (l ++ artists h) Pr) as (hs & E' & D').
    exists (h :: hs). rewrite E'. cbn [concat]. rewrite artists_app, app_assoc. auto.
Qed.

(** draw_clustering shows all obstacles of all clusters, without reference points, one after the other, and then robot and goal *)
Theorem C133_clustering : forall rand clusters p pg, Forall polygonal (concat clusters) ->
  exists hs, Forall2 (depicts false) (concat clusters) hs /\ draw_clustering rand clusters p pg = Ret (artists (concat hs) ++ [AMark p; AMark pg]).
Proof.
  intros rand clusters p pg F. unfold draw_clustering.
  assert (G : forall l, exists hs, draw_clusters rand l clusters = Ret (l ++ artists (concat hs)) /\ Forall2 (depicts false) (concat clusters) hs).
  { induction clusters as [|c r IH]; intros l; cbn [draw_clusters concat] in *; [exists []; cbn; rewrite app_nil_r; auto|]. apply Forall_app in F as (F1 & F2).
    destruct (all_depicted rand c l F1) as (h1 & E1 & D1). rewrite E1. cbn [bind]. destruct (IH F2 (l ++ artists (concat h1))) as (h2 & E2 & D2). exists (h1 ++ h2). rewrite E2, concat_app, artists_app, app_assoc.
    split; [reflexivity|]. apply Forall2_app; auto. }
  destruct (G []) as (hs & E & D). exists hs. split; [exact D|]. rewrite E. reflexivity.
Qed.
Print Assumptions C133_clustering.
(** what draw_star_hull has to show of one cluster: its star-shaped obstacle, if there is one, and over it the union of its obstacles *)
Definition hull_depicts (c : option obst * sgeom) (h : handles) : Prop :=
  exists h1 ps, to_show (snd c) = Some ps /\ h = h1 ++ map patch ps /\ match fst c with Some o => depicts true o h1 | None => h1 = [] end.
Theorem C133_star_hull : forall rand clusters p pg, Forall (fun c => to_show (snd c) <> None /\ match fst c with Some o => polygonal o | None => True end) clusters ->
  exists hs, Forall2 hull_depicts clusters hs /\ draw_star_hull rand clusters p pg = Ret (artists (concat hs) ++ [AMark p; AMark pg]).
Proof.
  intros rand clusters p pg F. unfold draw_star_hull.
  assert (G : forall l, exists hs, draw_hulls rand l clusters = Ret (l ++ artists (concat hs)) /\ Forall2 hull_depicts clusters hs).
  { induction F as [|(co, g) r (Fg & Fc) F IH]; intros l; cbn [draw_hulls]; [exists []; cbn; rewrite app_nil_r; auto|]. cbn [fst snd] in Fg, Fc. rewrite C122_shapely_partial. destruct (to_show g) as [ps|] eqn:Eg; [|congruence].
    assert (A : exists h1, (match co with Some o => add_drawing rand l o true | None => Ret l end) = Ret (l ++ artists h1) /\ match co with Some o => depicts true o h1 | None => h1 = [] end).
    { destruct co as [o|]; [|exists []; cbn; rewrite app_nil_r; auto]. destruct (obst_depicts rand o true Fc) as (h & E & D). exists h. unfold add_drawing. rewrite E. auto. }
    destruct A as (h1 & -> & D1). cbn [bind]. destruct (IH ((l ++ artists h1) ++ artists (map patch ps))) as (hs & E & D). exists ((h1 ++ map patch ps) :: hs). rewrite E. cbn [concat]. rewrite !artists_app, !app_assoc.
    split; [reflexivity|]. constructor; [|exact D]. exists h1, ps. auto. }
  destruct (G []) as (hs & E & D). exists hs. split; [exact D|]. rewrite E. reflexivity.
Qed.
Print Assumptions C133_star_hull.

(** ObstacleCluster.draw takes the results of draw in the wrong order: the handles of the first obstacle become the axes of the next. As a cluster has more than one obstacle, or one
    that is its cluster_obstacle too, the method never returns. *)
Theorem C133_cluster_draw_never : forall rand cluster_obstacle obstacles ax r, obstacles <> [] -> (cluster_obstacle = None -> (2 <= length obstacles)%nat) -> cluster_draw rand cluster_obstacle obstacles ax <> Ret r.
Proof.
  intros rand co os ax r NE H. unfold cluster_draw. assert (S1 : forall ax o a b, draw_on rand ax o true false = Ret (a, b) -> exists h, a = PHandles h).
  { intros x o a b E. unfold draw_on in E. destruct x; [| |discriminate]; destruct (draw_obst rand o true false) as [h|e]; cbn [bind] in E; try discriminate; injection E as <- _; eauto. }
  destruct co as [o|].
  - destruct (draw_on rand ax o true false) as [(a, b)|e] eqn:E; cbn [bind]; [|discriminate]. destruct (S1 _ _ _ _ E) as (h & ->). destruct os as [|o' os]; [congruence|]. discriminate.
  - specialize (H eq_refl). destruct os as [|o1 [|o2 os]]; cbn in H; try lia. cbn [draw_members]. destruct (draw_on rand ax o1 true false) as [(a, b)|e] eqn:E; cbn [bind]; [|discriminate]. destruct (S1 _ _ _ _ E) as (h & ->). discriminate.
Qed.
Print Assumptions C133_cluster_draw_never.
Theorem C133_cluster_draw_refuted : exists o, polygonal o /\ (forall rand, exists h, draw_obst rand o true false = Ret h /\ depicts true o h) /\ forall rand l, cluster_draw rand (Some o) [o] (PAxes l) = Exn AttributeErr.
Proof.
  exists (OPrim (Drawn (SEllipse (2, 1)) "1" None (0, 0))). split; [exact I|]. split; [intros rand; apply obst_depicts; exact I|]. intros rand l. reflexivity.
Qed.
Print Assumptions C133_cluster_draw_refuted.
(** the one cluster that draw can show, a single obstacle without cluster_obstacle: what the axes had stays, the obstacle is added, and the two results are the handles and the axes, in this order *)
Theorem C133_cluster_draw_one : forall rand o, polygonal o -> exists h, depicts true o h /\
  (forall l, cluster_draw rand None [o] (PAxes l) = Ret (PHandles h, Some (PAxes (l ++ artists h)))) /\ cluster_draw rand None [o] PNone = Ret (PHandles h, Some (PAxes (artists h))).
Proof.
  intros rand o P. destruct (obst_depicts rand o true P) as (h & E & D). exists h. split; [exact D|]. unfold cluster_draw. cbn [draw_members draw_on]. rewrite E. cbn [bind]. auto.
Qed.
Print Assumptions C133_cluster_draw_one.
(** *** a polygon and an ellipse in one cluster, a second ellipse alone *)
Example C133_example : let e := OPrim (Drawn (SEllipse (2, 1)) "1" None (0, 0)) in let q := OPrim (Drawn (SPolygon [(1, 0); (0, 1); (-1, 0)]) "2" None (0, 0)) in
  Forall polygonal (concat [[e; q]; [e]]) /\ exists a b, draw_clustering [] [[e; q]; [e]] (5, 5) (6, 6) = Ret [a; APatch [(1, 0); (0, 1); (-1, 0)]; b; AMark (5, 5); AMark (6, 6)].
Proof. cbv zeta. split; [repeat constructor|]. do 2 eexists. reflexivity. Qed.
