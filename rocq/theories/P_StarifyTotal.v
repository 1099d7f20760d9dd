(** When cluster_and_starify returns, raises, or never returns. *)
From Coq Require Import String Reals List Bool Arith ZArith Lia Lra Permutation.
From Verif Require Import Num Spec M_Cg M_Motion M_Obstacle M_Clusters L_Clusters P_Clusters M_StarHull M_Starify L_Geom L_Cg L_Starify P_Starify P_StarifyResult.
Import ListNotations.

Section Total.
  Context {Obs G : Type} (M : methods Obs G) (Sh : shapely G) (setl : list nat -> list nat).
  Notation cluster := (cluster Obs G).
  Notation call := (cluster_and_starify M Sh setl).

  (** *** one obstacle that cannot be processed *)
  Lemma first_clusters_each op x xg k : forall obs counter i r, first_clusters M Sh op x xg k counter i obs = Val r ->
    forall o, In o obs -> exists c j v, first_cluster M Sh op x xg k c j o = Val v.
  Proof.
    induction obs as [|o' obs IH]; intros counter i r H o Ho; [destruct Ho|]. cbn in H. obinv H. destruct a as [c1 cl]. obinv H. destruct Ho as [<-|Ho]; [eauto|eapply IH; eauto].
  Qed.
  Lemma fails_in_first op fuel counter x xg obs o : In o obs ->
    (forall k c j v, first_cluster M Sh op x xg k c j o <> Val v) ->
    forall a, call op fuel counter x xg obs = Val a -> a_flag a = INCOMPLETE /\ a_iter a = 0%nat.
  Proof.
    intros Ho Bad a H. unfold cluster_and_starify in H. obinv H. destruct a0 as [k|]; [|injection H as <-; split; reflexivity].
    obinv H. exfalso. destruct (first_clusters_each _ _ _ _ _ _ _ _ E0 o Ho) as (c & j & v & Q). apply (Bad _ _ _ _ Q).
  Qed.

  (** C75: a plain Polygon that is recognised as starshaped (every convex one) is never processed *)
  Theorem C75_plain_polygon_never : forall op fuel counter x xg obs o, In o obs ->
    ob_class M o = CPolygon -> ob_is_starshaped M o = true ->
    forall a, call op fuel counter x xg obs = Val a -> a_flag a = INCOMPLETE /\ a_iter a = 0%nat.
  Proof.
    intros op fuel counter x xg obs o Ho Cl St. apply (fails_in_first _ _ _ _ _ _ o Ho). intros k c j v H. unfold first_cluster in H. cbv zeta in H.
    do 5 obinv H. clear H. unfold compute_kernel_points in E3. obinv E3. obinv E3. unfold selection_set in E5. cbn [forallb] in E5. rewrite St in E5. cbn [andb with_kernels] in E5.
    rewrite Cl in E5. cbn in E5. discriminate.
  Qed.
  (** ... and with exclude_obstacles neither is anything next to an Ellipse *)
  Theorem C75_exclude_ellipse_never : forall op fuel counter x xg obs o o', In o obs -> In o' obs ->
    op_exclude_obstacles op = true -> ob_id M o <> ob_id M o' -> (ob_class M o' = CEllipse \/ ob_class M o' = CCombination) ->
    forall a, call op fuel counter x xg obs = Val a -> a_flag a = INCOMPLETE /\ a_iter a = 0%nat.
  Proof.
    intros op fuel counter x xg obs o o' Ho Ho' Ex Ne Cl' a H. assert (Cl : is_polygon_class (ob_class M o') = false) by (destruct Cl' as [-> | ->]; reflexivity). unfold cluster_and_starify in H. obinv H. destruct a0 as [k|]; [|injection H as <-; split; reflexivity]. exfalso.
    assert (Q : forall all d r, In o' all -> excluding_all M Sh o all d = Val r -> False).
    { clear - Ne Cl. induction all as [|o1 all IH]; intros d r Hi H; [destruct Hi|]. cbn [excluding_all] in H. destruct (id_eqb (ob_id M o1) (ob_id M o)) eqn:I.
      - destruct Hi as [->|Hi]; [|apply (IH _ _ Hi H)]. apply Ne. unfold id_eqb in I. destruct (ob_id M o'), (ob_id M o); try discriminate; [apply Z.eqb_eq in I; congruence|reflexivity].
      - destruct Hi as [->|Hi]; obinv H; [unfold excluding in E; rewrite Cl in E; discriminate|apply (IH _ _ Hi H)]. }
    assert (R : forall todo i k0 k1, In o todo -> prepare M Sh op x xg obs i todo k0 = Val (Some k1) -> False).
    { induction todo as [|o1 todo IH]; intros i k0 k1 Hi R; [destruct Hi|]. cbn [prepare] in R. destruct (op_late op _); [discriminate|]. obinv R. obinv R. destruct a0, a1; try discriminate.
      obinv R. destruct Hi as [->|Hi]; [rewrite Ex in E2; apply (Q _ _ _ Ho' E2)|apply (IH _ _ _ Hi R)]. }
    apply (R _ _ _ _ Ho E).
  Qed.

  (** once a call has failed, feeding its clusters back makes every later call on these obstacles fail too *)
  Theorem C71_incomplete_forever : forall op op' fuel fuel' counter counter' x xg x' xg' (obs : list Obs) a, obs <> [] ->
    call op fuel counter x xg obs = Val a -> a_flag a = INCOMPLETE -> op_previous op' = Some (a_clusters a) ->
    forall a', call op' fuel' counter' x' xg' obs = Val a' -> a_flag a' = INCOMPLETE /\ a_iter a' = 0%nat.
  Proof.
    intros op op' fuel fuel' counter counter' x xg x' xg' obs a N H Fl Pv. destruct obs as [|o obs]; [congruence|]. apply (fails_in_first _ _ _ _ _ (o :: obs) o (in_eq o obs)).
    intros k c j v Hf. unfold first_cluster in Hf. cbv zeta in Hf. do 5 obinv Hf. clear Hf. unfold compute_kernel_points in E3. rewrite Pv in E3.
    apply call_inv in H as [(_ & n & its & c' & ->)|H].
    - cbn [a_clusters default_result map extract_cluster find] in E3. rewrite String.eqb_refl in E3. cbn [c_kernel_points new_cluster obind] in E3. discriminate.
    - destruct H as (k0 & c0 & c1 & cls & out & b & c2 & its & its' & cls2 & _ & F & Gc & R & [(_ & _ & E' & _)|(_ & c3 & t & _ & E' & _)]); [congruence|]. destruct t; congruence.
  Qed.
  (** C82: at the goal *)
  Lemma collinear_same x c : is_collinear x x c = true.
  Proof. apply is_collinear_iff. unfold area2, cross, vsub; cbn. unfold TH. lra. Qed.
  Lemma off_line_same x : forall draws c, off_line x x draws c = NoAnswer.
  Proof. induction draws as [|d draws IH]; intros c; cbn [off_line]; rewrite collinear_same; auto. Qed.
  Theorem C82_at_goal_never : forall op fuel counter x (obs : list Obs), obs <> [] -> op_previous op = None ->
    forall a, call op fuel counter x x obs = Val a -> a_flag a = INCOMPLETE /\ a_iter a = 0%nat.
  Proof.
    intros op fuel counter x obs N Pv. destruct obs as [|o obs]; [congruence|]. apply (fails_in_first _ _ _ _ _ (o :: obs) o (in_eq o obs)).
    intros k c j v H. unfold first_cluster in H. cbv zeta in H. do 5 obinv H. clear H. unfold compute_kernel_points in E3. rewrite Pv in E3. cbn [extract_cluster obind] in E3.
    obinv E3. obinv E3. unfold triangle_center in E5. obinv E5. rewrite off_line_same in E5. discriminate.
  Qed.

  (** C83: clock *)
  Theorem C83_stuck_clock_never : forall op fuel counter x xg (obs : list Obs), obs <> [] -> (forall n i, op_timer op n i = (0, 0, 0, 0, 0)%R) ->
    forall a, call op fuel counter x xg obs = Val a -> a_flag a = INCOMPLETE /\ a_iter a = 0%nat.
  Proof.
    intros op fuel counter x xg obs N T. destruct obs as [|o obs]; [congruence|]. apply (fails_in_first _ _ _ _ _ (o :: obs) o (in_eq o obs)).
    intros k c j v H. unfold first_cluster in H. cbv zeta in H. do 5 obinv H. clear H. unfold compute_kernel_points in E3. do 4 obinv E3. cbv zeta in E3. rewrite T in E3.
    unfold total_time in E3. destruct (Reqb_spec (0 + (0 - 0) + (0 - (0 - 0)) + (0 - (0 - (0 - 0))) + (0 - (0 - (0 - (0 - 0))))) 0); [discriminate|lra].
  Qed.

  (** *** obstacles for which every step succeeds *)
  Definition convex_star (o : Obs) : Prop :=
    ob_class M o <> CPolygon /\ ob_is_convex M o = true /\ (exists g, ob_kernel M o = Ret g) /\
    (forall p, exists l, ob_tangent_points M o p = Ret l /\ List.length l <> 1%nat) /\ (forall k, exists g, ob_convex_hull M o k = Val g).
  Lemma star_class_of c : c <> CPolygon -> is_star_class c = true.
  Proof. destruct c; [congruence| | |]; reflexivity. Qed.
  Definition geometry_total : Prop :=
    (forall c, exists g, sh_cone Sh c = Ret g) /\ (forall g p, exists q, sh_nearest Sh g p = Ret q) /\
    (forall g p, exists d, sh_exterior_distance Sh g p = Ret d) /\ (forall g, sh_parts Sh g <> Some []) /\ (forall g, exists h, sh_convex_hull Sh g = Ret h).
  Hypothesis GT : geometry_total.

  Lemma omap_val {A B} (f : A -> outcome B) l : (forall a, In a l -> exists b, f a = Val b) -> exists bs, omap f l = Val bs /\ List.length bs = List.length l.
  Proof.
    induction l as [|a l IH]; intros H; cbn; [eauto|]. destruct (H a (or_introl eq_refl)) as [b ->]. cbn. destruct IH as (bs & -> & L); [intros; apply H; right; assumption|].
    cbn. exists (b :: bs). split; [reflexivity|cbn; congruence].
  Qed.
  Lemma ckp_val adm obs x xg eps ws draws timer : Forall convex_star obs -> leaves_line x xg draws -> total_time timer <> 0%R ->
    exists k, compute_kernel_points M Sh adm obs x xg eps None ws draws timer = Val k.
  Proof.
    intros F L T. destruct GT as (_ & Gn & Ge & Gp & _). unfold compute_kernel_points. cbn [obind].
    assert (W : forall t, exists t', with_kernels M Sh t obs = Val t').
    { clear - F. induction F as [|o obs (S1 & _ & (g & Kg) & _) F IH]; intros t; cbn; [eauto|]. rewrite (star_class_of _ S1), Kg. cbn. apply IH. }
    unfold selection_set. cbv zeta.
    assert (S1 : exists t, (if forallb (ob_is_starshaped M) obs then with_kernels M Sh (selection_set_workspace M Sh adm obs ws) obs else Val (selection_set_workspace M Sh adm obs ws)) = Val t)
      by (destruct (forallb _ _); [apply W|eauto]).
    destruct S1 as [t ->]. cbn [obind]. set (tc := if Rltb small _ then _ else _). clearbody tc. unfold triangle_center.
    destruct (Gn adm (sh_centroid Sh tc)) as [q ->]. cbn [of_res obind]. destruct (L q) as [c ->]. cbn [obind].
    assert (B : exists d, boundary_distance Sh tc c = Val d).
    { unfold boundary_distance. destruct (sh_parts Sh tc) as [gs|] eqn:Pt; [|destruct (Ge tc c) as [d ->]; cbn; eauto].
      destruct (omap_val (fun g => of_res (sh_exterior_distance Sh g c)) gs) as (ds & -> & Ln); [intros g _; destruct (Ge g c) as [d ->]; cbn; eauto|].
      cbn. destruct ds; [|eauto]. destruct gs; [|discriminate]. destruct (Gp _ Pt). }
    destruct B as [d ->]. cbn [obind]. destruct (Reqb_spec (total_time timer) 0); [contradiction|eauto].
  Qed.
  Lemma hull_val obs k : Forall convex_star obs -> exists h, kernel_starshaped_hull M Sh obs k = Val h.
  Proof.
    intros F. unfold kernel_starshaped_hull. destruct (omap_val (hull_of M k) obs) as (l & -> & _); [|cbn; eauto].
    intros o Ho. rewrite Forall_forall in F. destruct (F o Ho) as (_ & Cv & _ & _ & H). unfold hull_of. rewrite Cv. apply H.
  Qed.
  Lemma id_eqb_refl i : id_eqb i i = true.
  Proof. destruct i; cbn; [apply Z.eqb_refl|reflexivity]. Qed.
  Definition knows (k : cones G) (i : option Z) : Prop := (exists c, lookup i (k_robot k) = Some c) /\ exists c, lookup i (k_goal k) = Some c.
  Lemma lookup_cons {A} i j (v : A) d : (exists w, lookup i d = Some w) \/ i = j -> exists w, lookup i ((j, v) :: d) = Some w.
  Proof.
    unfold lookup. cbn. destruct (id_eqb i j) eqn:E; cbn; [eauto|]. intros [H| ->]; [exact H|]. rewrite id_eqb_refl in E. discriminate.
  Qed.
  Lemma prepare_knows op x xg all : forall obs i k k', prepare M Sh op x xg all i obs k = Val (Some k') -> forall o, knows k o \/ In o (map (ob_id M) obs) -> knows k' o.
  Proof.
    induction obs as [|o' obs IH]; intros i k k' H o Ho; cbn in H; [injection H as <-; destruct Ho as [Ho|[]]; exact Ho|].
    destruct (op_late op _); [discriminate|]. obinv H. obinv H. destruct a as [cx|], a0 as [cg|]; try discriminate. obinv H. apply (IH _ _ _ H).
    destruct Ho as [[A B]|[<-|Ho]]; [left|left|right; exact Ho]; split; cbn; apply lookup_cons; auto.
  Qed.

  Variable op : options Obs G.
  Variables x xg : RPt.
  Variable obs : list Obs.
  Hypothesis all_convex : Forall convex_star obs.
  Hypothesis draws_ok : forall n i, leaves_line x xg (op_draws op n i).
  Hypothesis clock_ok : forall n i, total_time (op_timer op n i) <> 0%R.
  Hypothesis no_previous : op_previous op = None.
  Hypothesis no_exclude : op_exclude_obstacles op = false.
  Hypothesis no_cut : op_max_iterations op = None.
  Hypothesis setl_ok : set_order setl.

  Lemma first_cluster_val k counter i o : knows k (ob_id M o) -> convex_star o -> exists r, first_cluster M Sh op x xg k counter i o = Val r.
  Proof.
    intros [(cx & Kx) (cg & Kg)] Co. unfold first_cluster. cbv zeta. unfold get_cone. rewrite Kx, Kg. cbn [obind]. destruct GT as (Gc & _). destruct (Gc cx) as [px ->]. destruct (Gc cg) as [pg ->]. cbn [of_res obind].
    rewrite no_previous. cbn [extract_cluster].
    destruct (ckp_val (sh_intersection Sh px pg) [o] x xg (op_epsilon op) (workspace op) (op_draws op 0 i) (op_timer op 0 i)) as [kp ->]; auto.
    cbn [obind id_argument]. destruct (hull_val [o] kp) as [h ->]; auto. cbn [obind]. destruct h as [h|]; [destruct (set_id counter IdNew); eauto|]. destruct Co as (Cs & _). rewrite (star_class_of _ Cs). eauto.
  Qed.
  Lemma first_clusters_val k : forall l counter i, (forall o, In o l -> knows k (ob_id M o) /\ convex_star o) -> exists r, first_clusters M Sh op x xg k counter i l = Val r.
  Proof.
    induction l as [|o l IH]; intros counter i H; cbn; [eauto|]. destruct (H o (or_introl eq_refl)) as [A B]. destruct (first_cluster_val k counter i o A B) as [[c1 cl] ->]. cbn.
    destruct (IH c1 (S i)) as [[c2 cls] ->]; [intros; apply H; right; assumption|]. cbn. eauto.
  Qed.
  Definition usable (k : cones G) (c : cluster) : Prop := c_obstacles c <> [] /\ forall o, In o (c_obstacles c) -> knows k (ob_id M o) /\ convex_star o.
  Lemma cones_val (d : list (option Z * cone R)) (l : list Obs) : l <> [] -> (forall o, In o l -> exists c, lookup (ob_id M o) d = Some c) -> exists g, cones_polygon M Sh op d l = Val g.
  Proof.
    intros N H. unfold cones_polygon. destruct (omap_val (fun o => get_cone d (ob_id M o)) l) as (cs & -> & L).
    - intros o Ho. destruct (H o Ho) as [c E]. unfold get_cone. rewrite E. eauto.
    - cbn [obind]. destruct cs as [|c cs]; [destruct l; [congruence|discriminate]|]. cbn [list_intersection]. destruct (list_intersection_loop [c] cs) as [ls|]; [|eauto].
      destruct GT as (Gc & _). unfold union_of_cones.
      assert (Q : exists gs, omap (fun c => of_res (sh_cone Sh c)) ls = Val gs) by (destruct (omap_val (fun c => of_res (sh_cone Sh c)) ls) as (gs & -> & _); [intros a _; destruct (Gc a) as [g ->]; cbn; eauto|eauto]).
      destruct ls as [|a [|b ls]]; [destruct Q as [gs ->]; cbn; eauto|destruct (Gc a) as [g ->]; cbn; eauto|destruct Q as [gs ->]; cbn; eauto].
  Qed.
  Lemma later_val k n i counter cl : usable k cl -> exists r, later_cluster M Sh op x xg obs k n i counter cl = Val r.
  Proof.
    intros [N U]. unfold later_cluster. destruct (cones_val (k_robot k) (c_obstacles cl) N) as [ar ->]; [intros o Ho; apply (U o Ho)|]. cbn [obind].
    destruct (cones_val (k_goal k) (c_obstacles cl) N) as [ag ->]; [intros o Ho; apply (U o Ho)|]. cbn [obind]. cbv zeta. destruct (vanishing Sh _); [eauto|].
    rewrite no_previous, no_exclude. cbn [extract_last andb].
    assert (Fc : Forall convex_star (c_obstacles cl)) by (apply Forall_forall; intros o Ho; apply (U o Ho)).
    destruct (ckp_val (sh_intersection Sh ar ag) (c_obstacles cl) x xg (op_epsilon op) (workspace op) (op_draws op n i) (op_timer op n i)) as [kp ->]; auto.
    cbn [obind id_argument]. destruct (hull_val (c_obstacles cl) kp Fc) as [h ->]. cbn [obind]. destruct (set_id counter IdNew). eauto.
  Qed.
  Lemma round_val k n : forall todo i counter h, Forall (usable k) todo -> exists r, starify_round M Sh op x xg obs k n i counter h todo = Val r.
  Proof.
    induction todo as [|cl todo IH]; intros i counter h U; cbn; [eauto|]. inversion U as [|? ? U1 U2]; subst. destruct (history_lookup (c_name cl) h).
    - destruct (IH (S i) counter h U2) as [[[[? ?] ?] ?] ->]. cbn. eauto.
    - destruct (later_val k n i counter cl U1) as [[[c' cl']|cl'] ->]; cbn [obind]; [|eauto]. destruct (IH (S i) c' (cl' :: h) U2) as [[[[? ?] ?] ?] ->]. cbn. eauto.
  Qed.
  Lemma round_usable k n : forall todo i counter h c' h' cls, starify_round M Sh op x xg obs k n i counter h todo = Val (c', h', cls, false) ->
    Forall (named M) todo -> Forall (usable k) todo -> Forall (usable k) h -> Forall (usable k) cls /\ Forall (usable k) h'.
  Proof.
    induction todo as [|cl todo IH]; intros i counter h c' h' cls H N U Uh; cbn in H; [injection H as <- <- <-; auto|].
    inversion U as [|? ? U1 U2]; subst. inversion N as [|? ? N1 N2]; subst. destruct (history_lookup (c_name cl) h) as [old|] eqn:L.
    - obinv H. destruct a as [[[c1 h1] cls1] q]. injection H as <- <- <- ->. destruct (IH _ _ _ _ _ _ E N2 U2 Uh) as [A B]. apply history_some in L as [L _]. rewrite Forall_forall in Uh. auto.
    - obinv H. destruct a as [[c1 cl']|cl']; [|discriminate]. obinv H. destruct a as [[[c2 h2] cls2] q]. injection H as <- <- <- ->.
      apply later_cluster_spec in E as (A & _ & _); [|exact N1]. cbn [snd] in A.
      assert (Uc : usable k cl') by (unfold usable in *; rewrite A; exact U1). destruct (IH _ _ _ _ _ _ E0 N2 U2 (Forall_cons _ Uc Uh)) as [X Y]. auto.
  Qed.
  Lemma gic_usable k cls out b : has_polygons M Sh cls -> get_intersection_clusters M Sh setl cls = Val (out, b) -> Forall (usable k) cls -> Forall (usable k) out.
  Proof.
    intros P H U. apply Forall_forall. intros c Hc. rewrite Forall_forall in U. pose proof H as H'. rewrite (gic_value M Sh setl cls P) in H. destruct (intersections_exist _ _); injection H as <- <-.
    - apply in_map_iff in Hc as (p & <- & Hp). unfold usable. cbn [new_cluster c_obstacles]. unfold gathered.
      assert (Pj : forall j, In j p -> (j < List.length cls)%nat).
      { intros j Hj. assert (In j (seq 0 (List.length cls))); [|apply in_seq in H; lia].
        apply (Permutation_in j (parts_perm (meet_b M Sh cls) setl setl_ok (List.length cls))). apply in_concat. exists p. auto. }
      split.
      + pose proof (parts_nonempty (meet_b M Sh cls) setl setl_ok (List.length cls) p Hp) as Ne. destruct p as [|j p]; [congruence|]. cbn [flat_map].
        destruct (nth_error cls j) as [c|] eqn:Ej; [|apply nth_error_None in Ej; specialize (Pj j (or_introl eq_refl)); lia].
        destruct (U c (nth_error_In _ _ Ej)) as [A _]. destruct (c_obstacles c); [congruence|discriminate].
      + intros o Ho. apply in_flat_map in Ho as (j & _ & Ho). destruct (nth_error cls j) as [c|] eqn:Ej; [|destruct Ho]. apply (U c (nth_error_In _ _ Ej)), Ho.
    - apply in_map_iff in Hc as (d & <- & Hd). specialize (U d Hd). unfold usable in *. destruct (read_cache M Sh d) as (_ & -> & _). exact U.
  Qed.
  Lemma rounds_val k : forall f n counter h its cls ex, loop_inv M Sh h cls ex -> Forall (usable k) cls -> Forall (usable k) h ->
    (List.length cls <= f)%nat -> exists e, rounds M Sh setl op x xg obs k f n counter h its cls ex = Val e.
  Proof.
    induction f as [|f IH]; intros n counter h its cls ex I U Uh L; cbn [rounds].
    - destruct ex; [destruct I as (_ & _ & I); lia|eauto].
    - destruct ex; [|eauto]. destruct (op_late op _); [eauto|]. destruct (round_val k n cls 0%nat counter h U) as [[[[c1 h1] cls1] q] R]. rewrite R. cbn [obind].
      destruct q; [eauto|]. destruct I as (D & N & _). pose proof (round_spec M Sh op x xg obs k n cls 0%nat counter h _ R N D) as (_ & _ & C & _). specialize (C eq_refl).
      pose proof (done_has M Sh cls1 C) as P. destruct (gic_total M Sh setl cls1 P) as (out & b & Gc). rewrite Gc. cbn [obind]. rewrite no_cut.
      destruct (round_inv M Sh setl setl_ok _ _ _ _ _ _ _ _ _ _ _ _ _ _ R N D Gc) as (I' & _ & _ & L').
      destruct (round_usable k n cls 0%nat counter h c1 h1 cls1 R N U Uh) as [U1 Uh1]. pose proof (gic_usable k cls1 out b P Gc U1) as Uo.
      destruct b; [apply IH; auto; specialize (L' eq_refl); lia|]. destruct f; cbn; eauto.
  Qed.
  Lemma convexify_val : forall todo counter before, Forall (done M Sh) todo ->
    exists r, convexify M Sh op x xg counter before todo = Val r.
  Proof.
    induction todo as [|cl todo IH]; intros counter before D; cbn [convexify]; [eauto|].
    inversion D as [|? ? [_ _ (ob & Eo & Ep) X] D']; subst. rewrite Eo in *.
    destruct (obst_is_convex M Sh op ob); [apply IH, D'|]. destruct (op_late op _); [eauto|].
    assert (Rd : exists cl1 g, read_polygon M Sh cl = (cl1, Some g)) by (unfold read_polygon; destruct Ep as [->| ->]; [rewrite Eo|]; eauto).
    destruct Rd as (cl1 & g & ->). destruct GT as (_ & _ & _ & _ & Gh). destruct (Gh g) as [h ->]. cbn [of_res obind]. destruct (_ && _); [|apply IH, D'].
    assert (Xr : exists p, obst_xr M ob = Val p). { destruct ob as [o [p|]| |]; cbn; eauto. destruct (X o eq_refl). }
    destruct Xr as [p ->]. cbn [obind]. destruct (set_id counter IdNew). apply IH, D'.
  Qed.
  Theorem C75_convex_star_partial : forall fuel counter, (List.length obs <= fuel)%nat -> (forall p q, sh_intersects Sh p q = sh_intersects Sh q p) ->
    exists a, call op fuel counter x xg obs = Val a.
  Proof.
    intros fuel counter L Sym. unfold cluster_and_starify. set (c0 := match op_workspace op with Some _ => counter | None => (counter + 1)%Z end). clearbody c0.
    destruct (prepare_total M Sh op x xg obs no_exclude obs 0%nat (Cones [] [] [])) as [k P].
    { intros o p Ho. rewrite Forall_forall in all_convex. apply (all_convex o Ho). }
    rewrite P. cbn [obind]. destruct k as [k|]; [|eauto].
    assert (Kn : forall o, In o obs -> knows k (ob_id M o) /\ convex_star o).
    { intros o Ho. split; [|rewrite Forall_forall in all_convex; apply (all_convex o Ho)]. apply (prepare_knows _ _ _ _ _ _ _ _ P). right. apply in_map, Ho. }
    destruct (first_clusters_val k obs c0 0%nat Kn) as [[c1 cls] F]. rewrite F. cbn [obind]. cbv zeta.
    pose proof F as F'. apply first_clusters_spec in F' as [A D]. cbn [snd] in *. pose proof (done_has M Sh cls D) as Hp.
    destruct (gic_total M Sh setl cls Hp) as (out & b & Gc). rewrite Gc. cbn [obind].
    destruct (first_inv M Sh setl setl_ok _ _ _ _ _ _ _ _ _ _ F Gc) as (_ & Ln & I & Lb).
    assert (U : Forall (usable k) cls).
    { apply Forall_forall. intros c Hc. assert (Q : In (c_obstacles c) (map (fun o => [o]) obs)) by (rewrite <- A; apply in_map, Hc).
      apply in_map_iff in Q as (o & E & Ho). unfold usable. rewrite <- E. split; [discriminate|]. intros o' [<-|[]]. apply Kn, Ho. }
    assert (Lo : (List.length out <= fuel)%nat).
    { destruct (C65_preserves_obstacles M Sh setl setl_ok cls out b Hp Gc) as (_ & Q1 & Q2). destruct b; [specialize (Q1 eq_refl)|specialize (Q2 eq_refl)]; lia. }
    destruct (rounds_val k fuel 1 c1 (rev cls) (if op_return_history op then [cls] else []) out b I (gic_usable k cls out b Hp Gc U) (Forall_rev U) Lo) as [e R]. rewrite R. cbn [obind].
    destruct e as [c2 n its'|c2 n its' cls2]; [eauto|]. destruct (op_make_convex op); [|eauto].
    destruct (finished_done M Sh setl setl_ok Sym op x xg k obs fuel c0 c1 cls out b _ c2 n its' cls2 F Gc R) as [D2 _]; [rewrite no_cut; discriminate|].
    destruct (convexify_val cls2 c2 [] D2) as [[[c3 t] cls3] ->]. cbn [obind]. destruct t; eauto.
  Qed.
End Total.
Print Assumptions C75_plain_polygon_never.
Print Assumptions C75_exclude_ellipse_never.
Print Assumptions C75_convex_star_partial.
Print Assumptions C71_incomplete_forever.
Print Assumptions C82_at_goal_never.
Print Assumptions C83_stuck_clock_never.
