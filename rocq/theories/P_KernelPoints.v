(** compute_kernel_points (cluster_and_starify.py:86-157): property C74. *)
From Coq Require Import String Reals List Bool Arith ZArith Lra Lia Psatz.
From Verif Require Import Num M_Cg M_Motion M_Obstacle M_Clusters M_StarHull M_Starify Spec L_Geom L_Cg L_Ellipse P_Cg.
Import ListNotations.
Local Open Scope R_scope.

(** *** helpers *)
Lemma obind_val {A B} (o : outcome A) (f : A -> outcome B) b : obind o f = Val b -> exists a, o = Val a /\ f a = Val b.
Proof. destruct o; cbn; intros E; try discriminate. eauto. Qed.

Lemma off_line_off (x xg : Pt) draws : forall c c', off_line x xg draws c = Val c' -> is_collinear x xg c' = false.
Proof.
  induction draws as [|d r IH]; intros c c'; cbn [off_line]; destruct (is_collinear x xg c) eqn:E; intros H; try discriminate.
  - injection H as <-. exact E.
  - eapply IH; exact H.
  - injection H as <-. exact E.
Qed.

(* the open disc of radius r around c is convex *)
Lemma disc_convex (c : Pt) (r : R) : convex (fun q => dist c q < r).
Proof.
  intros p q z Hp Hq [t [Ht ->]].
  assert (E : vsub c (along p q t) = vadd (smul (1 - t) (vsub c p)) (smul t (vsub c q))) by (unv; f_equal; ring).
  unfold dist in *. rewrite E. pose proof (norm_triangle (smul (1 - t) (vsub c p)) (smul t (vsub c q))) as T.
  rewrite !norm_smul, !Rabs_right in T by lra. 
  destruct (Req_dec t 1) as [->|N]; [lra|].
  assert ((1 - t) * norm (vsub c p) < (1 - t) * r) by (apply Rmult_lt_compat_l; lra).
  assert (t * norm (vsub c q) <= t * r) by (apply Rmult_le_compat_l; lra). lra.
Qed.

(** *** specification *)
(* d is the distance from c to the outer boundary of g (of the nearest of its parts) *)
Definition outer_distance {G} (Sh : shapely G) (g : G) (c : Pt) (d : R) : Prop :=
  match sh_parts Sh g with
  | None => sh_exterior_distance Sh g c = Ret d
  | Some gs => (exists h, In h gs /\ sh_exterior_distance Sh h c = Ret d) /\
               forall h, In h gs -> exists e, sh_exterior_distance Sh h c = Ret e /\ d <= e
  end.

Lemma omap_ok {A B} (f : A -> outcome B) : forall l r, omap f l = Val r ->
  (forall a, In a l -> exists b, f a = Val b /\ In b r) /\ (forall b, In b r -> exists a, In a l /\ f a = Val b).
Proof.
  induction l as [|a l IH]; intros r; cbn [omap]; intros E.
  - injection E as <-. split; intros ? [].
  - apply obind_val in E as (b & Eb & E). apply obind_val in E as (bs & Ebs & E). injection E as <-.
    destruct (IH _ Ebs) as [I1 I2]. split.
    + intros a' [<-|Ia]; [exists b; split; [exact Eb|left; reflexivity]|].
      destruct (I1 _ Ia) as (b' & F & J). exists b'. split; [exact F|right; exact J].
    + intros b' [<-|Ib]; [exists a; split; [left; reflexivity|exact Eb]|].
      destruct (I2 _ Ib) as (a' & J & F). exists a'. split; [right; exact J|exact F].
Qed.

Lemma fold_Rmin : forall r d, In (fold_left Rmin r d) (d :: r) /\ (forall e, In e (d :: r) -> fold_left Rmin r d <= e).
Proof.
  induction r as [|a r IH]; intros d; cbn [fold_left].
  - split; [left; reflexivity|]. intros e [<-|[]]. lra.
  - destruct (IH (Rmin d a)) as [I1 I2]. split.
    + destruct I1 as [I1|I1]; [|right; right; exact I1]. rewrite <- I1. unfold Rmin. destruct (Rle_dec d a); [left|right; left]; reflexivity.
    + pose proof (I2 _ (or_introl eq_refl)) as H. pose proof (Rmin_l d a). pose proof (Rmin_r d a).
      intros e [<-|[<-|I]]; [lra|lra|]. apply I2. right. exact I.
Qed.

Lemma of_res_val {A} (r : res A) a : of_res r = Val a -> r = Ret a.
Proof. destruct r; cbn; intros E; [injection E as ->; reflexivity|discriminate]. Qed.

Lemma boundary_distance_outer {G} (Sh : shapely G) g c d : boundary_distance Sh g c = Val d -> outer_distance Sh g c d.
Proof.
  unfold boundary_distance, outer_distance. destruct (sh_parts Sh g) as [gs|]; [|apply of_res_val].
  intros E. apply obind_val in E as (ds & E1 & E). destruct ds as [|d0 ds]; [discriminate|]. injection E as <-.
  apply omap_ok in E1 as [I1 I2]. destruct (fold_Rmin ds d0) as [F1 F2]. split.
  - destruct (I2 _ F1) as (h & J & K). exists h. split; [exact J|apply of_res_val, K].
  - intros h J. destruct (I1 _ J) as (e & K & L). exists e. split; [apply of_res_val, K|apply F2, L].
Qed.

(* how the centre is chosen *)
Inductive centre_choice {G} (Sh : shapely G) (adm tcss : G) (x xg : Pt) (draws : list Pt) (c : Pt) : option Pt -> Prop :=
| FreshCentre (c0 : Pt) (m : nat) : sh_nearest Sh adm (sh_centroid Sh tcss) = Ret c0 -> c = vadd c0 (psum (firstn m draws)) ->
    ~ (- TH < area2 x xg c < TH) ->
    (forall j, (j < m)%nat -> - TH < area2 x xg (vadd c0 (psum (firstn j draws))) < TH) ->
    centre_choice Sh adm tcss x xg draws c None
| KeptCentre : sh_contains Sh tcss c = true -> ~ (- TH < area2 x xg c < TH) -> centre_choice Sh adm tcss x xg draws c (Some c)
| MovedCentre (p : Pt) (pieces : list G) (piece : G) :
    ~ (sh_contains Sh tcss p = true /\ ~ (- TH < area2 x xg p < TH)) ->
    sh_split Sh tcss x xg = Ret pieces -> In piece pieces -> sh_nearest Sh adm (sh_centroid Sh piece) = Ret c ->
    ((TH < area2 x xg (sh_centroid Sh piece) <-> TH < area2 x xg p) \/ Some piece = hd_error pieces) ->
    centre_choice Sh adm tcss x xg draws c (Some p).

Lemma psum_cons a l : psum (a :: l) = vadd a (psum l).
Proof. reflexivity. Qed.
Lemma off_line_steps (x xg : Pt) draws : forall c c', off_line x xg draws c = Val c' ->
  exists m, c' = vadd c (psum (firstn m draws)) /\
    (forall j, (j < m)%nat -> - TH < area2 x xg (vadd c (psum (firstn j draws))) < TH).
Proof.
  assert (Z : forall c : Pt, vadd c (psum []) = c) by (intros [a b]; unv; cbn; f_equal; ring).
  induction draws as [|d r IH]; intros c c'; cbn [off_line]; destruct (is_collinear x xg c) eqn:E; intros H; try discriminate.
  - injection H as <-. exists 0%nat. cbn [firstn]. rewrite Z. split; [reflexivity|]. intros j L. inversion L.
  - destruct (IH _ _ H) as (m & E1 & E2). exists (S m). 
    assert (A : forall l, vadd (padd c d) (psum l) = vadd c (psum (d :: l))).
    { intros l. rewrite psum_cons. destruct c, d, (psum l). unv. cbn. unfold padd. cbn. f_equal; ring. }
    split; [cbn [firstn]; rewrite <- A; exact E1|].
    intros [|j] L; cbn [firstn]; [rewrite Z; apply is_collinear_iff; exact E|]. rewrite <- A. apply E2. lia.
  - injection H as <-. exists 0%nat. cbn [firstn]. rewrite Z. split; [reflexivity|]. intros j L. inversion L.
Qed.

Lemma collinear_false (x xg c : Pt) : is_collinear x xg c = false -> ~ (- TH < area2 x xg c < TH).
Proof. intros E N. apply is_collinear_iff in N. congruence. Qed.

Lemma same_side_ok {G} (Sh : shapely G) (x xg p : Pt) : forall rest first,
  In (same_side Sh x xg p first rest) (first :: rest) /\
  ((TH < area2 x xg (sh_centroid Sh (same_side Sh x xg p first rest)) <-> TH < area2 x xg p) \/
   same_side Sh x xg p first rest = first).
Proof.
  induction rest as [|g r IH]; intros first; cbn [same_side].
  - split; [left; reflexivity|right; reflexivity].
  - destruct (Bool.eqb (is_ccw x xg (sh_centroid Sh g)) (is_ccw x xg p)) eqn:E.
    + split; [right; left; reflexivity|left]. apply eqb_prop in E. rewrite <- !is_ccw_iff, E. reflexivity.
    + destruct (IH first) as [I1 I2]. split; [|exact I2]. destruct I1 as [I1|I1]; [left|right; right]; exact I1.
Qed.

Lemma triangle_center_choice {G} (Sh : shapely G) (adm tcss : G) (x xg : Pt) prev draws c :
  triangle_center Sh adm tcss x xg prev draws = Val c -> centre_choice Sh adm tcss x xg draws c prev.
Proof.
  unfold triangle_center. destruct prev as [p|].
  - destruct (sh_contains Sh tcss p && negb (is_collinear x xg p)) eqn:E.
    + intros H. injection H as <-. apply andb_true_iff in E as [E1 E2]. apply KeptCentre; [exact E1|].
      apply collinear_false. destruct (is_collinear x xg p); [discriminate|reflexivity].
    + intros H. apply obind_val in H as (l & H1 & H2). apply of_res_val in H1. destruct l as [|g r]; [discriminate|].
      apply of_res_val in H2. destruct (same_side_ok Sh x xg p r g) as [I1 I2].
      eapply (MovedCentre Sh adm tcss x xg draws c p (g :: r)); [|exact H1|exact I1|exact H2|].
      * intros [C N]. rewrite C in E. cbn [andb] in E. apply negb_false_iff in E. apply N. apply is_collinear_iff. exact E.
      * destruct I2 as [I2|I2]; [left; exact I2|right; cbn [hd_error]; f_equal; exact I2].
  - intros H. apply obind_val in H as (c0 & H1 & H2). apply of_res_val in H1.
    pose proof (off_line_off _ _ _ _ _ H2) as O. destruct (off_line_steps _ _ _ _ _ H2) as (m & E1 & E2).
    eapply FreshCentre; [exact H1|exact E1|apply collinear_false, O|exact E2].
Qed.

Lemma disc_in (c : Pt) (L d : R) (D : region) (t0 t1 t2 q : Pt) : 0 <= L -> L <= 9 / 10 * d -> 0 <= d ->
  dist c t0 = L / sqrt 3 -> dist c t1 = L / sqrt 3 -> dist c t2 = L / sqrt 3 ->
  D c -> (forall q, dist c q < d -> D q) -> in_hull [t0; t1; t2] q -> D q.
Proof.
  intros HL HLd Hd D0 D1 D2 Dc Dd H.
  assert (S3 : 1 < sqrt 3) by (rewrite <- sqrt_1 at 1; apply sqrt_lt_1; lra).
  assert (B : L / sqrt 3 <= L).
  { apply (Rmult_le_reg_r (sqrt 3)); [lra|]. unfold Rdiv. rewrite Rmult_assoc, Rinv_l, Rmult_1_r by lra. nra. }
  destruct (Req_dec d 0) as [Z|N].
  - assert (L = 0) by lra. subst L. unfold Rdiv in *. rewrite Rmult_0_l in *. 
    assert (F : forall t, dist c t = 0 -> t = c) by (intros t E; symmetry; apply dist_zero; exact E).
    apply F in D0, D1, D2. subst t0 t1 t2.
    apply (hull_in_convex (fun z => z = c) [c; c; c]) in H; [subst q; exact Dc| |].
    + intros p r z -> -> [t [_ ->]]. unv. destruct c. cbn. f_equal; ring.
    + intros p [<-|[<-|[<-|[]]]]; reflexivity.
  - apply Dd. apply (hull_in_convex (fun z => dist c z < d) [t0; t1; t2]); [apply disc_convex| |exact H].
    intros p [<-|[<-|[<-|[]]]]; lra.
Qed.

Lemma triangle_mean_mean a b c : triangle_mean (a, b, c) = mean [a; b; c].
Proof. unfold triangle_mean, mean. cbn [length]. destruct a, b, c. unv. cbn. f_equal; field. Qed.

(** C74.  What the call returns: an equilateral triangle around the chosen centre c, with side
    min(epsilon, 0.9 * distance from c to the outer boundary of the selection set); if c belongs to a region that contains the
    disc of that radius around c, so does the whole triangle.  How c is chosen is [centre_choice]. *)
Theorem C74_kernel_points_partial : forall (Obs G : Type) (M : methods Obs G) (Sh : shapely G) adm obs (x xg : Pt) epsilon prev ws
    draws timer (k0 k1 k2 : Pt),
  0 <= epsilon -> (forall g p d, sh_exterior_distance Sh g p = Ret d -> 0 <= d) ->
  compute_kernel_points M Sh adm obs x xg epsilon prev ws draws timer = Val (k0, k1, k2) ->
  exists tcss c d,
    selection_set M Sh adm obs ws = Val tcss /\ outer_distance Sh tcss c d /\
    dist k0 k1 = Rmin epsilon (9 / 10 * d) /\ dist k1 k2 = Rmin epsilon (9 / 10 * d) /\ dist k2 k0 = Rmin epsilon (9 / 10 * d) /\
    mean [k0; k1; k2] = c /\
    (forall D : region, D c -> (forall q, dist c q < d -> D q) -> forall q, in_hull [k0; k1; k2] q -> D q) /\
    match prev with
    | None => centre_choice Sh adm tcss x xg draws c None
    | Some p => exists a b e, c_kernel_points p = Some (a, b, e) /\ centre_choice Sh adm tcss x xg draws c (Some (mean [a; b; e]))
    end.
Proof.
  intros Obs G M Sh adm obs x xg epsilon prev ws draws timer k0 k1 k2 He Hd E. unfold compute_kernel_points in E.
  apply obind_val in E as (pv & E1 & E). apply obind_val in E as (tcss & E2 & E). apply obind_val in E as (c & E3 & E).
  apply obind_val in E as (d & E4 & E). cbv zeta in E. destruct (Reqb (total_time timer) 0); [discriminate|].
  apply boundary_distance_outer in E4. apply triangle_center_choice in E3.
  assert (D0 : 0 <= d).
  { unfold outer_distance in E4. destruct (sh_parts Sh tcss) as [gs|]; [destruct E4 as [(h & _ & F) _]|]; eauto. }
  assert (L0 : 0 <= Rmin epsilon (9 / 10 * d)) by (apply Rmin_glb; lra).
  pose proof (C12_triangle_partial c _ 0 L0) as T. 
  assert (E' : equilateral_triangle c (Rmin epsilon (9 / 10 * d)) 0 = (k0, k1, k2)) by (injection E; auto).
  rewrite E' in T. assert (Z : rotv 0 c = c) by (unfold rotv; rewrite cos_0, sin_0; destruct c; cbn; f_equal; ring).
  rewrite Z in T. destruct T as (T1 & T2 & T3 & T4 & T5 & T6 & T7).
  exists tcss, c, d. repeat (split; [assumption|]). split.
  - intros D Dc Dd q Hq. eapply (disc_in c (Rmin epsilon (9 / 10 * d)) d D k0 k1 k2 q); eauto. apply Rmin_r.
  - destruct prev as [p|]; [|injection E1 as <-; exact E3].
    destruct (c_kernel_points p) as [[[a b] e]|]; [|discriminate].
    assert (Epv : pv = Some (triangle_mean (a, b, e))) by congruence. rewrite Epv, triangle_mean_mean in E3. eauto.
Qed.
Print Assumptions C74_kernel_points_partial.

(** The selection set is part of the admissible kernel ... *)
Theorem C74_selection_in_admissible : forall (Obs G : Type) (M : methods Obs G) (Sh : shapely G) (den : G -> region) adm obs ws tcss,
  (forall a b p, den (sh_intersection Sh a b) p -> den a p) -> (forall a b p, den (sh_difference Sh a b) p -> den a p) ->
  selection_set M Sh adm obs ws = Val tcss -> forall p, den tcss p -> den adm p.
Proof.
  intros Obs G M Sh den adm obs ws tcss HI HD E p. unfold selection_set in E. cbv zeta in E.
  set (t0 := selection_set_workspace M Sh adm obs ws) in E.
  assert (H0 : den t0 p -> den adm p).
  { unfold t0, selection_set_workspace. destruct (sh_within Sh _ ws); [auto|]. destruct (Rltb small _); [|auto].
    intros H. apply HI in H. apply HD in H. exact H. }
  apply obind_val in E as (t & E1 & E).
  assert (H1 : den t p -> den t0 p).
  { clearbody t0. destruct (forallb (ob_is_starshaped M) obs); [|injection E1 as <-; auto].
    clear - E1 HI. revert t0 E1. induction obs as [|o r IH]; intros t0; cbn [with_kernels]; intros E1; [injection E1 as <-; auto|].
    destruct (is_star_class (ob_class M o)); [|discriminate]. apply obind_val in E1 as (k & E2 & E1).
    intros H. apply (IH _ E1) in H. apply HI in H. exact H. }
  injection E as <-. destruct (Rltb small _); [|exact H0]. destruct (Rltb _ small); [|auto].
  intros H. apply HI in H. auto.
Qed.
Print Assumptions C74_selection_in_admissible.

(* ... and part of every obstacle's kernel, if the cluster lies in the workspace, all its obstacles are starshaped and
   their kernels leave more than the threshold area of the admissible kernel *)
Theorem C74_selection_in_kernels : forall (Obs G : Type) (M : methods Obs G) (Sh : shapely G) (den : G -> region) adm obs ws tcss
    (kernel : Obs -> G),
  (forall a b p, den (sh_intersection Sh a b) p <-> den a p /\ den b p) ->
  sh_within Sh (sh_union Sh (map (ob_polygon M) obs)) ws = true ->
  (forall o, In o obs -> ob_is_starshaped M o = true /\ ob_class M o <> CPolygon /\ ob_kernel M o = Ret (kernel o)) ->
  1 / 1000000 < sh_area Sh (fold_left (sh_intersection Sh) (map kernel obs) adm) ->
  selection_set M Sh adm obs ws = Val tcss ->
  forall p, den tcss p <-> den adm p /\ forall o, In o obs -> den (kernel o) p.
Proof.
  intros Obs G M Sh den adm obs ws tcss kernel HI HW HO HA E p. unfold selection_set, selection_set_workspace in E.
  unfold polygon_excluding_hull in E at 1. cbv zeta in E. rewrite HW in E.
  assert (F : forallb (ob_is_starshaped M) obs = true) by (apply forallb_forall; intros o Io; apply HO; exact Io).
  rewrite F in E.
  assert (K : with_kernels M Sh adm obs = Val (fold_left (sh_intersection Sh) (map kernel obs) adm)).
  { clear - HO. revert adm. induction obs as [|o r IH]; intros adm; cbn [with_kernels map fold_left]; [reflexivity|].
    destruct (HO o (or_introl eq_refl)) as (_ & N & Ek). rewrite Ek. cbn [of_res obind].
    destruct (ob_class M o); [congruence| | |]; cbn [is_star_class]; apply IH; intros o' Io; apply HO; right; exact Io. }
  rewrite K in E. cbn [obind] in E.
  destruct (Rltb_spec (sh_area Sh (fold_left (sh_intersection Sh) (map kernel obs) adm)) small) as [L|_]; [unfold small in L; lra|].
  destruct (Rltb_spec small (sh_area Sh (fold_left (sh_intersection Sh) (map kernel obs) adm))) as [_|L]; [|unfold small in L; lra].
  injection E as <-. clear - HI. revert adm. induction obs as [|o r IH]; intros adm; cbn [map fold_left].
  - split; [intros H; split; [exact H|intros o []]|tauto].
  - rewrite IH, HI. split.
    + intros [[A B] C]. split; [exact A|]. intros o' [<-|I]; auto.
    + intros [A B]. split; [split; [exact A|apply B; left; reflexivity]|]. intros o' I. apply B. right. exact I.
Qed.
Print Assumptions C74_selection_in_kernels.

(** *** scenes *)
Inductive shape := Adm | Ushape | Ws.
Definition u_shape : region := fun p => -3 <= fst p <= 3 /\ -3 <= snd p <= 3 /\ ~ (-1 < fst p < 1 /\ -1 < snd p).
Definition box (a b c d : R) : region := fun p => a <= fst p <= b /\ c <= snd p <= d.
Definition one_obstacle : methods unit shape :=
  Methods unit shape (fun _ => Some 1%Z) (fun _ => CPolygon) (fun _ => false) (fun _ => false) (fun _ => Ushape)
    (fun _ => Exn AttributeErr) (fun _ _ => Ret []) (fun _ _ => true) (fun _ => []) (fun _ _ => NoAnswer) (fun _ _ => NoAnswer)
    (fun _ => (0, 0)).
Definition scene (area : shape -> R) (inter : shape -> shape -> shape) (within : bool) (contains : bool) (centroid : shape -> RPt)
    (nearest : RPt -> RPt) (d : R) : shapely shape :=
  Shapely shape area (fun _ => false) inter (fun a _ => a) (fun _ => Ushape) (fun _ _ => within) (fun _ _ => true)
    (fun _ _ => contains) centroid (fun _ p => Ret (nearest p)) (fun g _ _ => Ret [g]) (fun _ => None) (fun _ _ => Ret d)
    (fun g => Ret g) (fun _ => Ret Adm).

Lemma scene_runs (prev : option (cluster unit shape)) pv area inter within contains centroid nearest d (x xg c : Pt) tcss :
  match prev with None => Val None
    | Some p => match c_kernel_points p with None => Raise ValueErr | Some k => Val (Some (triangle_mean k)) end end = Val pv ->
  let Sh := scene area inter within contains centroid nearest d in
  selection_set one_obstacle Sh Adm [tt] Ws = Val tcss -> triangle_center Sh Adm tcss x xg pv [] = Val c ->
  exists k0 k1 k2, compute_kernel_points one_obstacle Sh Adm [tt] x xg (1 / 10) prev Ws [] (1, 1, 1, 1, 1) = Val (k0, k1, k2) /\
    equilateral_triangle c (Rmin (1 / 10) (9 / 10 * d)) 0 = (k0, k1, k2).
Proof.
  intros P Sh E1 E2. destruct (equilateral_triangle c (Rmin (1 / 10) (9 / 10 * d)) 0) as [[k0 k1] k2] eqn:T. exists k0, k1, k2. split; [|reflexivity].
  unfold compute_kernel_points. rewrite P. cbn [obind]. rewrite E1. cbn [obind]. rewrite E2. cbn [obind].
  unfold boundary_distance, Sh. cbn [scene sh_parts sh_exterior_distance of_res obind]. cbv zeta.
  assert (Z : Reqb (total_time (1, 1, 1, 1, 1)) 0 = false). { destruct (Reqb_spec (total_time (1,1,1,1,1)) 0) as [Q|_]; [unfold total_time in Q; lra|reflexivity]. }
  rewrite Z, T. reflexivity.
Qed.

Lemma equi_dist (c : Pt) L k0 k1 k2 : 0 <= L -> equilateral_triangle c L 0 = (k0, k1, k2) ->
  dist c k0 = L / sqrt 3 /\ dist c k1 = L / sqrt 3 /\ dist c k2 = L / sqrt 3 /\ mean [k0; k1; k2] = c /\ dist k0 k1 = L /\ dist k1 k2 = L.
Proof.
  intros HL E. pose proof (C12_triangle_partial c L 0 HL) as T. rewrite E in T.
  assert (Z : rotv 0 c = c) by (unfold rotv; rewrite cos_0, sin_0; destruct c; cbn; f_equal; ring).
  rewrite Z in T. tauto.
Qed.

(** The centre need not belong to the selection set: a U-shaped obstacle outside the workspace, inside the admissible kernel.
    The centroid of the U lies in its notch, and so does the whole triangle, although the U is the selection set. *)
Definition u_scene : shapely shape :=
  scene (fun s => match s with Ushape => 28 | _ => 400 end) (fun _ b => b) false false
    (fun s => match s with Ushape => (0, - (2 / 7)) | _ => (0, 0) end) (fun p => p) (5 / 7).
Definition u_den (s : shape) : region := match s with Adm => box (-10) 10 (-10) 10 | Ushape => u_shape | Ws => box (-10) 10 20 40 end.

Lemma near_notch a b : dist (0, - (2 / 7)) (a, b) < 5 / 7 -> -1 < a < 1 /\ -1 < b < 1.
Proof.
  intros D. unfold dist, norm in D.
  assert (Q : norm2 (vsub (0, - (2 / 7)) (a, b)) < (5 / 7) * (5 / 7)).
  { apply Rnot_le_lt. intros H. apply sqrt_le_1_alt in H. rewrite sqrt_square in H by lra. lra. }
  clear D. unfold norm2, dot, vsub in Q. cbn [fst snd] in Q.
  pose proof (Rle_0_sqr (- (2 / 7) - b)) as QB. pose proof (Rle_0_sqr (0 - a)) as QA. unfold Rsqr in QA, QB.
  assert (A : Rsqr (0 - a) < Rsqr (5 / 7)) by (unfold Rsqr; lra).
  assert (B : Rsqr (- (2 / 7) - b) < Rsqr (5 / 7)) by (unfold Rsqr; lra).
  apply Rsqr_lt_abs_0 in A. apply Rsqr_lt_abs_0 in B. rewrite (Rabs_right (5 / 7)) in A, B by lra. apply Rabs_def2 in A. apply Rabs_def2 in B. lra.
Qed.
Lemma notch q : dist (0, - (2 / 7)) q < 5 / 7 -> ~ u_shape q.
Proof.
  intros D (_ & _ & N). apply N. destruct q as [a b]. apply near_notch in D. cbn. lra.
Qed.

Theorem C74_inside_refuted : exists (Sh : shapely shape) (den : shape -> region) (x xg : Pt) tcss (k0 k1 k2 : Pt),
  (forall a b p, den (sh_intersection Sh a b) p -> den b p) /\
  selection_set one_obstacle Sh Adm [tt] Ws = Val tcss /\ (exists p, den tcss p) /\ (forall p, den tcss p -> den Adm p) /\
  compute_kernel_points one_obstacle Sh Adm [tt] x xg (1 / 10) None Ws [] (1, 1, 1, 1, 1) = Val (k0, k1, k2) /\
  (forall q, in_hull [k0; k1; k2] q -> den Adm q /\ ~ den tcss q).
Proof.
  exists u_scene, u_den, (-20, 15), (20, 15), Ushape.
  assert (E1 : selection_set one_obstacle u_scene Adm [tt] Ws = Val Ushape).
  { unfold selection_set, selection_set_workspace, u_scene. cbn [scene sh_within sh_intersection sh_difference sh_area polygon_excluding_hull map sh_union one_obstacle ob_polygon forallb ob_is_starshaped andb obind].
    unfold polygon_excluding_hull. cbn [scene sh_union]. 
    destruct (Rltb_spec small 28) as [_|N]; [|unfold small in N; lra]. destruct (Rltb_spec 28 small) as [N|_]; [unfold small in N; lra|].
    destruct (Rltb_spec small 28) as [_|N]; [|unfold small in N; lra]. reflexivity. }
  assert (E2 : triangle_center u_scene Adm Ushape (-20, 15) (20, 15) None [] = Val (0, - (2 / 7))).
  { unfold triangle_center, u_scene. cbn [scene sh_nearest sh_centroid of_res obind off_line].
    destruct (is_collinear (-20, 15) (20, 15) (0, - (2 / 7))) eqn:C; [exfalso|reflexivity].
    apply (proj1 (is_collinear_iff _ _ _)) in C. revert C. unfold TH. unv. cbn. lra. }
  destruct (scene_runs None None _ _ _ _ _ _ _ _ _ _ _ eq_refl E1 E2) as (k0 & k1 & k2 & E3 & E4). exists k0, k1, k2.
  split; [intros a b p H; exact H|]. split; [exact E1|]. split.
  { exists (-2, 0). cbn. unfold u_shape. cbn. lra. }
  split. { intros [a b] (A & B & _). cbn in *. unfold box. cbn. lra. }
  split; [exact E3|].
  assert (L0 : 0 <= Rmin (1 / 10) (9 / 10 * (5 / 7))) by (apply Rmin_glb; lra).
  pose proof (Rmin_r (1 / 10) (9 / 10 * (5 / 7))) as LR.
  apply equi_dist in E4; [|exact L0]. destruct E4 as (D0 & D1 & D2 & _).
  intros q Hq.
  split.
  - apply (disc_in (0, - (2 / 7)) _ (5 / 7) (u_den Adm) k0 k1 k2 q L0 LR ltac:(lra) D0 D1 D2); [cbn; unfold box; cbn; lra| |exact Hq].
    intros [a b] Dz. apply near_notch in Dz. cbn. unfold box. cbn. lra.
  - apply (disc_in (0, - (2 / 7)) _ (5 / 7) (fun z => ~ u_den Ushape z) k0 k1 k2 q L0 LR ltac:(lra) D0 D1 D2); [|apply notch|exact Hq].
    apply notch. rewrite dist_refl. lra.
Qed.
Print Assumptions C74_inside_refuted.

(** The centre may be collinear with x and xg: the selection set is the box [4,6]x[-1,1], the segment from (0,0) to (2,0)
    does not split it, and its centroid lies on the line. *)
Definition prev_cluster (k : RPt * RPt * RPt) : cluster unit shape := Cluster "1"%string [tt] None (Some k) None None.
Theorem C74_collinear_refuted : exists (Sh : shapely shape) (x xg : Pt) (prev : cluster unit shape) (k0 k1 k2 : Pt),
  x <> xg /\
  compute_kernel_points one_obstacle Sh Adm [tt] x xg (1 / 10) (Some prev) Ws [] (1, 1, 1, 1, 1) = Val (k0, k1, k2) /\
  area2 x xg (mean [k0; k1; k2]) = 0.
Proof.
  set (Sh := scene (fun _ => 4) (fun a _ => a) true false (fun _ => (5, 0)) (fun p => p) 1).
  exists Sh, (0, 0), (2, 0), (prev_cluster ((0, 5), (0, 5), (0, 5))).
  assert (E1 : selection_set one_obstacle Sh Adm [tt] Ws = Val Adm).
  { unfold selection_set, selection_set_workspace, Sh. cbn [scene sh_within sh_intersection sh_area forallb one_obstacle ob_is_starshaped andb obind].
    destruct (Rltb_spec 4 small) as [N|_]; [unfold small in N; lra|]. destruct (Rltb_spec small 4) as [_|N]; [reflexivity|unfold small in N; lra]. }
  assert (E2 : triangle_center Sh Adm Adm (0, 0) (2, 0) (Some (triangle_mean ((0, 5), (0, 5), (0, 5)))) [] = Val (5, 0)) by reflexivity.
  destruct (scene_runs (Some (prev_cluster ((0, 5), (0, 5), (0, 5)))) _ _ _ _ _ _ _ _ _ _ _ _ eq_refl E1 E2) as (k0 & k1 & k2 & E3 & E4).
  exists k0, k1, k2. split; [intros Q; injection Q; lra|]. split; [exact E3|].
  apply equi_dist in E4; [|apply Rmin_glb; lra]. destruct E4 as (_ & _ & _ & -> & _). unv. cbn. ring.
Qed.
Print Assumptions C74_collinear_refuted.

(** The triangle may shrink to a point: the admissible kernel is the U, its centroid lies in the notch and the nearest point
    of the U, (0,-1), on its boundary. *)
Theorem C74_degenerate_refuted : exists (Sh : shapely shape) (x xg k : Pt),
  compute_kernel_points one_obstacle Sh Adm [tt] x xg (1 / 10) None Ws [] (1, 1, 1, 1, 1) = Val (k, k, k) /\
  u_shape k /\ (forall q, u_shape q -> dist (sh_centroid Sh Adm) k <= dist (sh_centroid Sh Adm) q) /\ sh_nearest Sh Adm (sh_centroid Sh Adm) = Ret k.
Proof.
  set (Sh := scene (fun _ => 28) (fun a _ => a) true false (fun _ => (0, - (2 / 7))) (fun _ => (0, -1)) 0).
  exists Sh, (-20, 15), (20, 15), (0, -1).
  assert (E1 : selection_set one_obstacle Sh Adm [tt] Ws = Val Adm).
  { unfold selection_set, selection_set_workspace, Sh. cbn [scene sh_within sh_intersection sh_area forallb one_obstacle ob_is_starshaped andb obind].
    destruct (Rltb_spec 28 small) as [N|_]; [unfold small in N; lra|]. destruct (Rltb_spec small 28) as [_|N]; [reflexivity|unfold small in N; lra]. }
  assert (E2 : triangle_center Sh Adm Adm (-20, 15) (20, 15) None [] = Val (0, -1)).
  { unfold triangle_center, Sh. cbn [scene sh_nearest sh_centroid of_res obind off_line].
    destruct (is_collinear (-20, 15) (20, 15) (0, -1)) eqn:C; [exfalso|reflexivity].
    apply (proj1 (is_collinear_iff _ _ _)) in C. revert C. unfold TH. unv. cbn. lra. }
  destruct (scene_runs None None _ _ _ _ _ _ _ _ _ _ _ eq_refl E1 E2) as (k0 & k1 & k2 & E3 & E4).
  assert (Z : Rmin (1 / 10) (9 / 10 * 0) = 0) by (rewrite Rmin_right; lra). rewrite Z in E4.
  apply equi_dist in E4; [|lra]. destruct E4 as (D0 & D1 & D2 & _). unfold Rdiv in *. rewrite Rmult_0_l in *.
  apply dist_zero in D0, D1, D2. subst k0 k1 k2. split; [exact E3|]. split; [unfold u_shape; cbn; lra|]. split; [|reflexivity].
  intros q Uq. cbn [Sh scene sh_centroid]. apply Rnot_lt_le. intros L. apply (notch q); [|exact Uq].
  eapply Rlt_le_trans; [exact L|]. unfold dist, norm. right. replace (norm2 _) with ((5 / 7) * (5 / 7)) by (unv; cbn; field).
  rewrite sqrt_square; lra.
Qed.
Print Assumptions C74_degenerate_refuted.

(** a run in which the hypotheses hold and the triangle has side 1/10 *)
Example C74_example : exists (Sh : shapely shape) (k0 k1 k2 : Pt),
  (forall g p d, sh_exterior_distance Sh g p = Ret d -> 0 <= d) /\
  compute_kernel_points one_obstacle Sh Adm [tt] (0, 0) (2, 0) (1 / 10) None Ws [] (1, 1, 1, 1, 1) = Val (k0, k1, k2) /\
  dist k0 k1 = 1 / 10 /\ mean [k0; k1; k2] = (5, 1).
Proof.
  set (Sh := scene (fun _ => 4) (fun a _ => a) true false (fun _ => (5, 1)) (fun p => p) 1). exists Sh.
  assert (E1 : selection_set one_obstacle Sh Adm [tt] Ws = Val Adm).
  { unfold selection_set, selection_set_workspace, Sh. cbn [scene sh_within sh_intersection sh_area forallb one_obstacle ob_is_starshaped andb obind].
    destruct (Rltb_spec 4 small) as [N|_]; [unfold small in N; lra|]. destruct (Rltb_spec small 4) as [_|N]; [reflexivity|unfold small in N; lra]. }
  assert (E2 : triangle_center Sh Adm Adm (0, 0) (2, 0) None [] = Val (5, 1)).
  { unfold triangle_center, Sh. cbn [scene sh_nearest sh_centroid of_res obind off_line].
    destruct (is_collinear (0, 0) (2, 0) (5, 1)) eqn:C; [exfalso|reflexivity].
    apply (proj1 (is_collinear_iff _ _ _)) in C. revert C. unfold TH. unv. cbn. lra. }
  destruct (scene_runs None None _ _ _ _ _ _ _ _ _ _ _ eq_refl E1 E2) as (k0 & k1 & k2 & E3 & E4). exists k0, k1, k2.
  split; [intros g p d Q; injection Q; lra|]. split; [exact E3|].
  apply equi_dist in E4; [|apply Rmin_glb; lra]. destruct E4 as (_ & _ & _ & EM & ED & _). split; [|exact EM].
  rewrite ED. apply Rmin_left. lra.
Qed.
