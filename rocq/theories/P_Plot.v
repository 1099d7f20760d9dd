(** C121: what the plotting methods show. C122: the grid of draw_adm_ker. *)
From Coq Require Import String Reals List Bool Arith Lia Lra.
From Verif Require Import Num Spec M_Cg M_Motion M_Obstacle M_Polygon M_Plot L_Geom.
Import ListNotations.
Local Open Scope R_scope.

(** the points of the curve that matplotlib draws for an ellipse patch: half axes along the axes, turned by the angle in degrees, moved to the centre *)
Definition on_patch (center : RPt) (width height angle : R) (p : RPt) : Prop :=
  exists t, let u := (width / 2 * cos t, height / 2 * sin t) in let r := angle * PI / 180 in
    p = (cos r * fst u - sin r * snd u + fst center, sin r * fst u + cos r * snd u + snd center).

Lemma deg r : rad2deg r * PI / 180 = r.
Proof. unfold rad2deg. field. apply PI_neq0. Qed.
Lemma transform_pose m x f q : frame_pose m f = Some q -> f <> OTHER ->
  transform m x OBSTACLE f = Ret (cos (snd q) * fst x - sin (snd q) * snd x + fst (fst q), sin (snd q) * fst x + cos (snd q) * snd x + snd (fst q)).
Proof.
  intros H N. destruct x as [x y]. unfold transform. destruct m as [m|].
  - destruct f; [|injection H as <-|destruct (N eq_refl)]; cbn [frame_eqb]; [injection H as <-|].
    + unfold affine_transform. cbn [fst snd]. destruct (Reqb_spec (m_rot m) 0) as [E|E]; cbn [negb]; [|reflexivity]. rewrite E, cos_0, sin_0. f_equal. f_equal; ring.
    + cbn [fst snd]. rewrite cos_0, sin_0. f_equal. f_equal; ring.
  - destruct f; injection H as <-; cbn [fst snd]; rewrite cos_0, sin_0; f_equal; f_equal; ring.
Qed.
Lemma pose_some m f : f <> OTHER -> exists q, frame_pose m f = Some q.
Proof. intros N. destruct f, m; cbn; eauto; destruct (N eq_refl). Qed.
Lemma xr_ret o f : f <> OTHER -> exists p, frame_xr o f = Ret p.
Proof. intros N. destruct (pose_some (d_mm o) f N) as [q Q]. unfold frame_xr. rewrite (transform_pose _ _ _ _ Q N). eauto. Qed.
Lemma ring_ret m v f : f <> OTHER -> exists l, extreme_points m v f = Ret l /\ Forall2 (fun x y => transform m x OBSTACLE f = Ret y) v l.
Proof.
  intros N. destruct (pose_some m f N) as [q Q].
  assert (X : forall l, (forall x, In x v -> transform m x OBSTACLE f = Ret (l x)) -> Forall2 (fun x y => transform m x OBSTACLE f = Ret y) v (map l v)).
  { clear. intros l. induction v as [|x v IH]; intros H; cbn; constructor; [apply H; left; reflexivity|apply IH; intros; apply H; right; assumption]. }
  destruct f; [|destruct m|destruct (N eq_refl)]; [destruct m as [m|]|..].
  - cbn [extreme_points]. eexists. split; [reflexivity|]. unfold apply_pose. apply X. intros x _. rewrite (transform_pose _ _ _ _ Q N). injection Q as <-. cbn. f_equal. f_equal; ring.
  - exists v. split; [reflexivity|]. rewrite <- (map_id v) at 2. apply X. reflexivity.
  - exists v. split; [reflexivity|]. rewrite <- (map_id v) at 2. apply X. reflexivity.
  - exists v. split; [reflexivity|]. rewrite <- (map_id v) at 2. apply X. reflexivity.
Qed.

(** what a picture of the obstacle in frame [f] has to be: the boundary, the mark of the reference point and the name, in the order of the class *)
Definition boundary_ok (o : drawn) (f : frame) (a : artist) : Prop :=
  match d_shape o, a with
  | SEllipse ax, AEllipse c w h an => forall p, on_patch c w h an p <-> exists t, transform (d_mm o) (fst ax * cos t, snd ax * sin t) OBSTACLE f = Ret p
  | SPolygon ring, APatch xy | SStar ring, APatch xy => Forall2 (fun v q => transform (d_mm o) v OBSTACLE f = Ret q) ring xy
  | _, _ => False
  end.
Definition mark_ok (o : drawn) (f : frame) (show : bool) (h : option artist) : Prop :=
  if show then exists p, h = Some (AMark p) /\ transform (d_mm o) (d_xr o) OBSTACLE f = Ret p else h = None.
Definition name_ok (o : drawn) (f : frame) (show : bool) (at_ : RPt) (h : option artist) : Prop :=
  if show then exists p, h = Some (AText p (d_name o)) /\ transform (d_mm o) at_ OBSTACLE f = Ret p else h = None.
Definition picture (o : drawn) (f : frame) (ref nam : bool) (h : handles) : Prop :=
  match d_shape o with
  | SEllipse _ => exists b m n, h = [Some b; m; n] /\ boundary_ok o f b /\ mark_ok o f ref m /\ name_ok o f nam (d_xr o) n
  | SPolygon _ => exists b n, h = [Some b; n] /\ boundary_ok o f b /\ name_ok o f nam (0, 0) n
  | SStar _ => exists b n m, h = [Some b; n; m] /\ boundary_ok o f b /\ mark_ok o f ref m /\ name_ok o f nam (d_xr o) n
  end.

Lemma origin_pose m f q : f <> OTHER -> frame_pose m f = Some q -> transform m (0, 0) OBSTACLE f = Ret (fst q).
Proof. intros N Q. rewrite (transform_pose _ _ _ _ Q N). destruct q as [[a b] r]. cbn. f_equal. f_equal; ring. Qed.
(* the handles init_plot makes, whatever has been done to them since *)
Definition of_class (o : drawn) (ref nam : bool) (h : handles) : Prop :=
  let mark (m : option artist) := if ref then exists p, m = Some (AMark p) else m = None in
  let text (n : option artist) := if nam then exists p, n = Some (AText p (d_name o)) else n = None in
  match d_shape o with
  | SEllipse a => exists c an m n, h = [Some (AEllipse c (2 * fst a) (2 * snd a) an); m; n] /\ mark m /\ text n
  | SPolygon _ => exists xy n, h = [Some (APatch xy); n] /\ text n
  | SStar _ => exists xy n m, h = [Some (APatch xy); n; m] /\ mark m /\ text n
  end.
Lemma init_class o ref nam rand : of_class o ref nam (init_plot o ref nam rand).
Proof.
  unfold of_class, init_plot, shown. destruct (d_shape o).
  - do 4 eexists. split; [reflexivity|]. split; [destruct ref|destruct nam]; eauto.
  - do 2 eexists. split; [reflexivity|]. destruct nam; eauto.
  - do 3 eexists. split; [reflexivity|]. split; [destruct ref|destruct nam]; eauto.
Qed.
Lemma set_mark ref m p : (if ref : bool then exists p, m = Some (AMark p) else m = None) -> set_data m (Ret p) = Ret (shown ref (AMark p)).
Proof. destruct ref; [intros [q ->]|intros ->]; reflexivity. Qed.
Lemma set_text nam n s p : (if nam : bool then exists p, n = Some (AText p s) else n = None) -> set_position n (Ret p) = Ret (shown nam (AText p s)).
Proof. destruct nam; [intros [q ->]|intros ->]; reflexivity. Qed.
Lemma update_shows o f ref nam h : f <> OTHER -> of_class o ref nam h -> exists h', update_plot o h f = Ret h' /\ picture o f ref nam h' /\ of_class o ref nam h'.
Proof.
  intros N C. destruct (pose_some (d_mm o) f N) as [[pos rot] Q]. destruct (xr_ret o f N) as [x X]. unfold of_class, update_plot, picture, boundary_ok, mark_ok, name_ok in *.
  destruct (d_shape o) as [a|ring|ring] eqn:S.
  - destruct C as (c & an & m & n & -> & Cm & Cn). rewrite Q, X, (set_mark _ _ _ Cm), (set_text _ _ _ _ Cn). cbn [bind]. eexists. split; [reflexivity|]. split.
    + do 3 eexists. split; [reflexivity|]. split; [|split; [destruct ref|destruct nam]; cbn; eauto].
      intros p. unfold on_patch. cbv zeta. rewrite deg. cbn [fst snd]. split; intros [t H]; exists t.
      * rewrite (transform_pose _ _ _ _ Q N). cbn [fst snd]. rewrite H. f_equal. f_equal; field.
      * rewrite (transform_pose _ _ _ _ Q N) in H. cbn [fst snd] in H. injection H as <-. f_equal; field.
    + do 4 eexists. split; [reflexivity|]. split; [destruct ref|destruct nam]; cbn; eauto.
  - destruct C as (xy & n & -> & Cn). destruct (ring_ret (d_mm o) ring f N) as (l & L & F). rewrite L. cbn [bind]. rewrite Q, (set_text _ _ _ _ Cn). cbn [bind]. eexists. split; [reflexivity|]. split.
    + do 2 eexists. split; [reflexivity|]. split; [exact F|]. destruct nam; cbn; [|reflexivity]. exists pos. split; [reflexivity|]. apply (origin_pose _ _ _ N Q).
    + do 2 eexists. split; [reflexivity|]. destruct nam; cbn; eauto.
  - destruct C as (xy & n & m & -> & Cm & Cn). destruct (ring_ret (d_mm o) ring f N) as (l & L & F). rewrite L. cbn [bind]. rewrite X, (set_text _ _ _ _ Cn). cbn [bind]. rewrite (set_mark _ _ _ Cm). cbn [bind].
    eexists. split; [reflexivity|]. split.
    + do 3 eexists. split; [reflexivity|]. split; [exact F|]. split; [destruct ref|destruct nam]; cbn; eauto.
    + do 3 eexists. split; [reflexivity|]. split; [destruct ref|destruct nam]; cbn; eauto.
Qed.

(** draw shows the obstacle; update_plot, after any motion and any number of earlier updates in either frame, shows the obstacle as it is then *)
Theorem C121_draw_shows_partial : forall o f ref nam rand, f <> OTHER -> exists h, draw o f ref nam rand = Ret h /\ picture o f ref nam h.
Proof. intros o f ref nam rand N. destruct (update_shows o f ref nam _ N (init_class o ref nam rand)) as (h & E & P & _). eauto. Qed.
Print Assumptions C121_draw_shows_partial.
(* the object after it was moved or its reference point set: d_mm, d_xr change; and the frame in which it is shown *)
Fixpoint updates (o : drawn) (l : list (option mm * RPt * frame)) (h : handles) : res handles :=
  match l with
  | [] => Ret h
  | (m, x, f) :: r => bind (update_plot (Drawn (d_shape o) (d_name o) m x) h f) (updates o r)
  end.
Lemma of_class_state o m x ref nam h : of_class o ref nam h <-> of_class (Drawn (d_shape o) (d_name o) m x) ref nam h.
Proof. reflexivity. Qed.
Theorem C121_update_shows_partial : forall o ref nam rand l m x f, (forall e, In e l -> snd e <> OTHER) -> f <> OTHER ->
  exists h, updates o (l ++ [(m, x, f)]) (init_plot o ref nam rand) = Ret h /\ picture (Drawn (d_shape o) (d_name o) m x) f ref nam h.
Proof.
  intros o ref nam rand l m x f Nl N. pose proof (init_class o ref nam rand) as C. revert C. generalize (init_plot o ref nam rand) as h. induction l as [|[[m' x'] f'] l IH]; intros h C; cbn [app updates].
  - destruct (update_shows (Drawn (d_shape o) (d_name o) m x) f ref nam h N) as (h' & E & P & _); [exact C|]. rewrite E. cbn [bind]. eauto.
  - destruct (update_shows (Drawn (d_shape o) (d_name o) m' x') f' ref nam h) as (h' & E & _ & C'); [apply (Nl (m', x', f') (or_introl eq_refl))|exact C|]. rewrite E. cbn [bind].
    apply IH; [intros e He; apply Nl; right; exact He|exact C'].
Qed.
Print Assumptions C121_update_shows_partial.
(** the name of a plain Polygon is written at the origin of its frame, outside of the polygon if the vertices are elsewhere; the caller cannot tell the handles by their place: the
    second is the mark of the reference point for an Ellipse and the name for a StarshapedPolygon *)
Theorem C121_order_refuted : exists a ring xr h h' p q, let o := Drawn (SEllipse a) "1" None xr in let o' := Drawn (SStar ring) "2" None xr in
  draw o GLOBAL true true [] = Ret h /\ draw o' GLOBAL true true [] = Ret h' /\ nth_error h 1 = Some (Some (AMark p)) /\ nth_error h' 1 = Some (Some (AText q "2")).
Proof. exists (1, 1), [(1, 0); (0, 1); (-1, 0)], (0, 0). do 4 eexists. cbv zeta. repeat split; reflexivity. Qed.
Print Assumptions C121_order_refuted.
(** a combination: update_plot does not show the reference point where set_xr has put it, and cannot be called with a frame *)
Theorem C121_combination_refuted : exists o h xr, comb_draw o true false = Ret h /\
  (exists p, In (Some (AMark p)) h /\ p = cb_xr o) /\
  (forall h', comb_update_plot (Combined (cb_polygon o) (cb_name o) xr) h None = Ret h' -> ~ In (Some (AMark xr)) h') /\
  forall f, comb_update_plot o h (Some f) = Exn TypeErr.
Proof.
  exists (Combined (GPolygon [(1, 0); (0, 1); (-1, 0)]) "3" (0, 1 / 2)). eexists. exists (0, 1 / 4). split; [reflexivity|]. split; [eexists; split; [right; left; reflexivity|reflexivity]|]. split; [|reflexivity].
  intros h' E. cbn in E. injection E as <-. intros [H|[H|[H|[]]]]; try discriminate. injection H as H. lra.
Qed.
Print Assumptions C121_combination_refuted.
(** a combination drawn once shows its polygons, its reference point and its name; the boundary takes as many handles as there are polygons *)
Theorem C121_combination_partial : forall o ref nam h, comb_draw o ref nam = Ret h ->
  exists ps, polygon_parts (cb_polygon o) = Ret ps /\ h = map (fun r => Some (APatch r)) ps ++ [shown ref (AMark (cb_xr o)); shown nam (AText (cb_xr o) (cb_name o))].
Proof.
  intros o ref nam h H. unfold comb_draw, comb_init_plot, draw_shapely_polygon in H. destruct (polygon_parts (cb_polygon o)) as [ps|e]; cbn [bind] in H; [|discriminate]. exists ps. split; [reflexivity|].
  assert (E : draw_parts None ps = Ret (map (fun r => Some (APatch r)) ps)) by (clear; induction ps as [|r ps IH]; [reflexivity|]; cbn [draw_parts bind map]; rewrite IH; reflexivity).
  rewrite E in H. cbn [bind comb_update_plot] in H. injection H as <-. reflexivity.
Qed.
Print Assumptions C121_combination_partial.
Example C121_example : exists m h h', frame_pose (Some m) GLOBAL = Some ((3, 4), PI / 2) /\
  draw (Drawn (SEllipse (2, 1)) "1" (Some m) (1, 0)) GLOBAL true true [] = Ret h /\
  updates (Drawn (SEllipse (2, 1)) "1" (Some m) (1, 0)) [(None, (0, 1), GLOBAL)] h = Ret h' /\
  nth_error h 0 = Some (Some (AEllipse (3, 4) (2 * 2) (2 * 1) (rad2deg (PI / 2)))) /\ rad2deg (PI / 2) = 90 /\ nth_error h' 1 = Some (Some (AMark (0, 1))).
Proof.
  exists (static_new (Some (3, 4)) (PI / 2)). do 2 eexists. split; [reflexivity|]. split; [reflexivity|]. split; [reflexivity|]. split; [reflexivity|]. split; [|reflexivity]. unfold rad2deg. field. apply PI_neq0.
Qed.

(** C122: draw_shapely_polygon and the cells of draw_adm_ker *)
(* the outlines of the polygons among the parts of a geometry, in order *)
Fixpoint outlines (ps : list (option (list RPt))) : list (list RPt) :=
  match ps with [] => [] | Some r :: t => r :: outlines t | None :: t => outlines t end.
(* what has to be shown of a geometry; None: it has no parts and is no polygon *)
Definition to_show (g : sgeom) : option (list (list RPt)) := match g with GPolygon r => Some [r] | GMulti ps => Some (outlines ps) | GSimple => None end.
Definition patch (r : list RPt) : option artist := Some (APatch r).
Lemma parts_show g : polygon_parts g = match to_show g with Some l => Ret l | None => Exn AttributeErr end.
Proof. destruct g as [r|ps|]; [reflexivity| |reflexivity]. cbn. f_equal. induction ps as [|[r|] ps IH]; cbn; congruence. Qed.
Lemma draw_parts_all ps : draw_parts None ps = Ret (map patch ps).
Proof. induction ps as [|r ps IH]; [reflexivity|]. cbn [draw_parts bind map]. rewrite IH. reflexivity. Qed.
Theorem C122_shapely_partial : forall g, draw_shapely_polygon g None = match to_show g with Some l => Ret (map patch l) | None => Exn AttributeErr end.
Proof. intros g. unfold draw_shapely_polygon. rewrite parts_show. destruct (to_show g); [apply draw_parts_all|reflexivity]. Qed.
Print Assumptions C122_shapely_partial.
(** with both limits the pieces inside the box are drawn as long as every polygon leaves one polygon in the box *)
Theorem C122_clipped_partial : forall g clip l, to_show g = Some l ->
  (forall l', Forall2 (fun r r' => clip r = GPolygon r') l l' -> draw_shapely_polygon g (Some clip) = Ret (map patch l')) /\
  ((exists r, In r l /\ forall r', clip r <> GPolygon r') -> draw_shapely_polygon g (Some clip) = Exn AttributeErr).
Proof.
  intros g clip l H. unfold draw_shapely_polygon. rewrite parts_show, H. cbn [bind]. clear H. split.
  - intros l' F. induction F as [|r r' l l' E F IH]; [reflexivity|]. cbn [draw_parts]. rewrite E. cbn [exterior bind]. rewrite IH. reflexivity.
  - induction l as [|r l IH]; intros (s & Hs & N); [destruct Hs|]. cbn [draw_parts]. destruct (clip r) as [q|ps|] eqn:E; [|reflexivity|reflexivity].
    cbn [exterior bind]. rewrite IH; [reflexivity|]. destruct Hs as [->|Hs]; [destruct (N _ E)|eauto].
Qed.
Print Assumptions C122_clipped_partial.

Lemma grid n i : (i < n)%nat -> (i / n_col n < n_col n)%nat /\ (i mod n_col n < n_col n)%nat.
Proof.
  intros H. unfold n_col. pose proof (Nat.sqrt_spec n (Nat.le_0_l n)) as [_ S]. split; [|apply Nat.mod_upper_bound; lia]. apply Nat.div_lt_upper_bound; [lia|]. rewrite Nat.add_1_r. nia.
Qed.
(* the clusters whose admissible kernel is there and not empty *)
Definition has_kernel (is_empty : sgeom -> bool) (k : kernel_view) : bool := match kv_kernel k with Some g => negb (is_empty g) | None => false end.
(* what has to be seen of one of them: the kernel and the triangle, nothing if the kernel is a point *)
Definition seen (is_point : sgeom -> bool) (k : kernel_view) (h : handles) : Prop := exists g, kv_kernel k = Some g /\
  if is_point g then h = [] else exists l, to_show g = Some l /\ h = map patch l ++ match kv_points k with Some (a, b, c) => [patch [a; b; c]] | None => [] end.
Lemma cells_spec ie ip n : forall l i cells, adm_ker_cells ip n i (valid_kernels ie l) = Ret cells ->
  Forall2 (seen ip) (filter (has_kernel ie) l) (map snd cells) /\ forall j c, nth_error cells j = Some c -> fst (fst c) = ((i + j) / n)%nat /\ snd (fst c) = ((i + j) mod n)%nat.
Proof.
  induction l as [|[[g|] kp] l IH]; intros i cells H.
  - injection H as <-. split; [constructor|intros [|j]; discriminate].
  - unfold valid_kernels in H. cbn [flat_map kv_kernel kv_points] in H. cbn [filter has_kernel kv_kernel]. unfold has_kernel at 1. cbn [kv_kernel]. destruct (ie g); cbn [negb app] in *; [apply IH, H|].
    cbn [adm_ker_cells] in H. destruct (kernel_patches ip g kp) as [h|e] eqn:K; cbn [bind] in H; [|discriminate]. fold (valid_kernels ie l) in H.
    destruct (adm_ker_cells ip n (S i) (valid_kernels ie l)) as [t|e] eqn:E; cbn [bind] in H; [|discriminate]. injection H as <-. destruct (IH _ _ E) as [Sn F]. split.
    + cbn [map snd]. constructor; [|exact Sn]. exists g. split; [reflexivity|]. unfold kernel_patches in K. destruct (ip g); [injection K as <-; reflexivity|].
      rewrite C122_shapely_partial in K. destruct (to_show g) as [ps|]; cbn [bind] in K; [|discriminate]. exists ps. split; [reflexivity|]. cbn [kv_points].
      destruct kp as [[[a b] c]|]; cbn in K; injection K as <-; [reflexivity|symmetry; apply app_nil_r].
    + intros [|j] c Hj; cbn in Hj; [injection Hj as <-; cbn; rewrite Nat.add_0_r; auto|]. apply F in Hj. rewrite Nat.add_succ_r. exact Hj.
  - apply IH, H.
Qed.
(** every cluster with a kernel that is not empty gets axes of its own within the grid, which show its kernel and its triangle *)
Theorem C122_cells_partial : forall is_empty is_point l n cells, draw_adm_ker is_empty is_point l = Ret (n, cells) ->
  Forall2 (seen is_point) (filter (has_kernel is_empty) l) (map snd cells) /\
  (forall c, In c cells -> (fst (fst c) < n)%nat /\ (snd (fst c) < n)%nat) /\ NoDup (map fst cells).
Proof.
  intros ie ip l n cells H. unfold draw_adm_ker in H. cbv zeta in H.
  destruct (adm_ker_cells ip (n_col (List.length (valid_kernels ie l))) 0 (valid_kernels ie l)) as [t|e] eqn:E; cbn [bind] in H; [|discriminate]. injection H as <- <-.
  assert (L : List.length t = List.length (valid_kernels ie l)).
  { revert E. generalize (n_col (List.length (valid_kernels ie l))) as n, 0%nat as i. generalize t, (valid_kernels ie l). clear. intros t v. revert t. induction v as [|[g kp] v IH]; intros t n i H; [injection H as <-; reflexivity|].
    cbn [adm_ker_cells] in H. destruct (kernel_patches ip g kp); cbn [bind] in H; [|discriminate]. destruct (adm_ker_cells ip n (S i) v) as [t'|] eqn:E; cbn [bind] in H; [|discriminate]. injection H as <-. cbn. f_equal. apply (IH _ _ _ E). }
  destruct (cells_spec _ _ _ _ _ _ E) as [Sn F]. cbn [Nat.add] in F. split; [exact Sn|]. revert L F. generalize (List.length (valid_kernels ie l)) as v. clear. intros v L F. split.
  - intros c Hc. apply In_nth_error in Hc as [j Hj]. assert (Lj : (j < v)%nat) by (rewrite <- L; apply nth_error_Some; congruence). apply F in Hj as [-> ->]. apply grid, Lj.
  - apply (NoDup_nth_error (map fst t)). intros i j Hi Hij. rewrite map_length in Hi. rewrite !nth_error_map in Hij.
    destruct (nth_error t i) as [ci|] eqn:Ei; [|apply nth_error_None in Ei; lia]. destruct (nth_error t j) as [cj|] eqn:Ej; [|discriminate]. cbn in Hij. injection Hij as Hij.
    apply F in Ei as [A1 A2]. apply F in Ej as [B1 B2]. rewrite Hij in A1, A2. assert (N : n_col v <> 0%nat) by (unfold n_col; lia).
    rewrite (Nat.div_mod i (n_col v) N), (Nat.div_mod j (n_col v) N). congruence.
Qed.
Print Assumptions C122_cells_partial.
(** it raises exactly if one of those kernels is neither a point nor has parts, as a line segment *)
Theorem C122_raises_partial : forall is_empty is_point l,
  (exists e, draw_adm_ker is_empty is_point l = Exn e) <->
  exists k g, In k l /\ kv_kernel k = Some g /\ is_empty g = false /\ is_point g = false /\ to_show g = None.
Proof.
  intros ie ip l. unfold draw_adm_ker. cbv zeta. generalize (n_col (List.length (valid_kernels ie l))) as n. intros n.
  transitivity (exists e, adm_ker_cells ip n 0 (valid_kernels ie l) = Exn e).
  { destruct (adm_ker_cells ip n 0 (valid_kernels ie l)); cbn [bind]; split; intros [e' H]; first [discriminate|eexists; reflexivity]. }
  generalize 0%nat as i. induction l as [|[[g|] kp] l IH]; intros i.
  - split; [intros [e H]; discriminate|intros (k & g & [] & _)].
  - unfold valid_kernels. cbn [flat_map kv_kernel kv_points]. fold (valid_kernels ie l). destruct (ie g) eqn:Eg; cbn [app].
    + rewrite IH. split; intros (k & g' & H & R); exists k, g'; [split; [right; exact H|exact R]|]. destruct H as [<-|H]; [|auto]. cbn in R. destruct R as (R & E & _). injection R as <-. congruence.
    + cbn [adm_ker_cells]. assert (K : kernel_patches ip g kp = if ip g then Ret [] else match to_show g with None => Exn AttributeErr | Some ps => Ret (map patch ps ++ match kp with Some (a, b, c) => [patch [a; b; c]] | None => [] end) end).
      { unfold kernel_patches. destruct (ip g); [reflexivity|]. rewrite C122_shapely_partial. destruct (to_show g) as [ps|]; [|reflexivity]. cbn [bind]. destruct kp as [[[a b] c]|]; [reflexivity|rewrite app_nil_r; reflexivity]. }
      rewrite K. clear K. destruct (ip g) eqn:Ep; [|destruct (to_show g) as [ps|] eqn:Es].
      * cbn [bind]. transitivity (exists e, adm_ker_cells ip n (S i) (valid_kernels ie l) = Exn e).
        { destruct (adm_ker_cells ip n (S i) (valid_kernels ie l)); cbn [bind]; split; intros [e' H]; first [discriminate|eexists; reflexivity]. }
        rewrite IH. split; intros (k & g' & H & R); exists k, g'; [split; [right; exact H|exact R]|]. destruct H as [<-|H]; [|auto]. cbn in R. destruct R as (R & _ & E & _). injection R as <-. congruence.
      * cbn [bind]. transitivity (exists e, adm_ker_cells ip n (S i) (valid_kernels ie l) = Exn e).
        { destruct (adm_ker_cells ip n (S i) (valid_kernels ie l)); cbn [bind]; split; intros [e' H]; first [discriminate|eexists; reflexivity]. }
        rewrite IH. split; intros (k & g' & H & R); exists k, g'; [split; [right; exact H|exact R]|]. destruct H as [<-|H]; [|auto]. cbn in R. destruct R as (R & _ & _ & E). injection R as <-. congruence.
      * cbn [bind]. split; [|intros _; eexists; reflexivity]. intros _. exists (KernelView (Some g) kp), g. repeat split; auto. left. reflexivity.
  - unfold valid_kernels. cbn [flat_map kv_kernel]. fold (valid_kernels ie l). cbn [app]. rewrite IH. split; intros (k & g' & H & R); exists k, g'; [split; [right; exact H|exact R]|]. destruct H as [<-|H]; [|auto]. destruct R as [R _]. discriminate.
Qed.
Print Assumptions C122_raises_partial.
(** a kernel that is a line segment makes the function raise; so does a polygon that the box cuts in two *)
Theorem C122_line_refuted : exists is_empty is_point l, (forall k, In k l -> exists g, kv_kernel k = Some g /\ is_empty g = false) /\ draw_adm_ker is_empty is_point l = Exn AttributeErr.
Proof. exists (fun _ => false), (fun _ => false), [KernelView (Some GSimple) None]. split; [|reflexivity]. intros k [<-|[]]. exists GSimple. split; reflexivity. Qed.
Print Assumptions C122_line_refuted.
(* a U, of which the box with y at least 2 leaves the two arms *)
Theorem C122_clipped_refuted : exists clip, let u := [(0, 0); (3, 0); (3, 3); (2, 3); (2, 1); (1, 1); (1, 3); (0, 3)] in
  clip u = GMulti [Some [(0, 2); (1, 2); (1, 3); (0, 3)]; Some [(2, 2); (3, 2); (3, 3); (2, 3)]] /\
  draw_shapely_polygon (GPolygon u) None = Ret [Some (APatch u)] /\ draw_shapely_polygon (GPolygon u) (Some clip) = Exn AttributeErr.
Proof. exists (fun _ => GMulti [Some [(0, 2); (1, 2); (1, 3); (0, 3)]; Some [(2, 2); (3, 2); (3, 3); (2, 3)]]). cbv zeta. repeat split; reflexivity. Qed.
Print Assumptions C122_clipped_refuted.
Example C122_example : exists cells, draw_adm_ker (fun _ => false) (fun _ => false) (repeat (KernelView (Some (GMulti [None; Some [(0, 0); (1, 0); (0, 1)]])) (Some ((0, 0), (1, 0), (0, 1)))) 5 ++ [KernelView None None]) = Ret (3%nat, cells) /\
  map fst cells = [(0, 0); (0, 1); (0, 2); (1, 0); (1, 1)]%nat /\ Forall (fun h => List.length h = 2%nat) (map snd cells).
Proof. eexists. split; [reflexivity|]. split; [reflexivity|]. repeat constructor. Qed.
