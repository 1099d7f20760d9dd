(** C107: the guarantee of cluster_and_starify with make_convex on. *)
From Coq Require Import String Reals List Bool Arith ZArith Lia Lra Permutation.
From Verif Require Import Num Spec S_Guarantee M_Cg M_Motion M_Obstacle M_Clusters L_Clusters P_Clusters M_StarHull M_Starify L_Geom L_Hull L_HullDisjoint L_Cg L_Cone P_Cone
  P_KernelPoints L_Starify P_Starify P_StarifyResult P_StarHull L_Guarantee P_Guarantee.
Import ListNotations.
Open Scope R_scope.

Section ConvexGuarantee.
  Context {Obs G : Type} (M : methods Obs G) (Sh : shapely G) (setl : list nat -> list nat).
  Variables (den : G -> region) (body : Obs -> region) (unique : list Pt -> list Pt).
  Variables (op : options Obs G) (x xg : Pt) (obs : list Obs).
  Notation cluster := (cluster Obs G).
  Notation call := (cluster_and_starify M Sh setl).
  Notation region_of := (obst_region den body).

  Hypothesis setl_ok : set_order setl.
  Hypothesis symmetric : forall p q, sh_intersects Sh p q = sh_intersects Sh q p.
  Hypothesis unique_ok : forall l p, In p (unique l) <-> In p l.
  Hypothesis geometry : faithful_geometry M Sh den op x xg obs.
  Hypothesis obstacles : convex_obstacles M body x xg obs.
  (** shapely's convex hull is the convex hull *)
  Hypothesis hulls : forall g h, sh_convex_hull Sh g = Ret h -> forall z, den h z <-> hull_region (den g) z.
  (** the polygon of an obstacle covers it *)
  Hypothesis cover : forall o p, In o obs -> body o p -> den (ob_polygon M o) p.

  (** *** the reference point and what stops the step *)
  Lemma nth_error_Some_lt {A} (l : list A) i a : nth_error l i = Some a -> (i < List.length l)%nat.
  Proof. intros H. apply nth_error_Some. congruence. Qed.
  Lemma convexify_xr : forall todo counter before c b out, convexify M Sh op x xg counter before todo = Val (c, b, out) ->
    forall j cl cl' ob, nth_error todo j = Some cl -> nth_error out (List.length before + j) = Some cl' -> c_obstacle cl = Some ob ->
    exists ob', c_obstacle cl' = Some ob' /\ (forall p, obst_xr M ob = Val p -> obst_xr M ob' = Val p).
  Proof.
    induction todo as [|cl0 todo IH]; intros counter before c b out H j cl cl' ob Hj Hj' Ho; [destruct j; discriminate|]. cbn [convexify] in H.
    destruct (c_obstacle cl0) as [ob0|] eqn:E0; [|discriminate].
    assert (Step : forall cl1 counter', (forall ob, c_obstacle cl0 = Some ob -> exists ob', c_obstacle cl1 = Some ob' /\ (forall p, obst_xr M ob = Val p -> obst_xr M ob' = Val p)) ->
       convexify M Sh op x xg counter' (before ++ [cl1]) todo = Val (c, b, out) -> exists ob', c_obstacle cl' = Some ob' /\ (forall p, obst_xr M ob = Val p -> obst_xr M ob' = Val p)).
    { intros cl1 counter' K Rc. destruct j as [|j]; cbn [nth_error] in Hj.
      - injection Hj as <-. apply convexify_spec in Rc as (out2 & E & _). rewrite E, Nat.add_0_r, nth_error_app1, nth_error_app2, Nat.sub_diag in Hj'; [|lia|rewrite app_length; cbn; lia].
        cbn in Hj'. injection Hj' as <-. apply K, Ho.
      - apply (IH _ _ _ _ _ Rc j cl cl' ob Hj); [|exact Ho]. rewrite app_length. cbn [List.length]. replace (List.length before + 1 + j)%nat with (List.length before + S j)%nat by lia. exact Hj'. }
    destruct (obst_is_convex M Sh op ob0); [apply (Step cl0 counter); [intros ob1 ->; eauto|exact H]|].
    destruct (op_late op _).
    - injection H as <- <- <-. rewrite nth_error_app2 in Hj' by lia. replace (List.length before + j - List.length before)%nat with j in Hj' by lia. rewrite Hj in Hj'. injection Hj' as <-. eauto.
    - pose proof (read_cache M Sh cl0) as (_ & _ & Q3 & _). destruct (read_polygon M Sh cl0) as [cl1 [g|]]; [|discriminate]. cbn [fst] in Q3. obinv H. destruct (_ && _).
      + obinv H. destruct (set_id counter IdNew) as [counter' oid]. eapply Step; [|exact H]. intros ob1 E9. cbn. eexists. split; [reflexivity|]. cbn. intros p Hp. rewrite E0 in E9. injection E9 as <-. congruence.
      + apply (Step cl1 counter); [|exact H]. intros ob1 E1. rewrite Q3. eauto.
  Qed.
  Lemma convexify_blocked : forall todo counter before c out, convexify M Sh op x xg counter before todo = Val (c, true, out) ->
    forall i cl', (List.length before <= i)%nat -> nth_error out i = Some cl' -> exists ob, c_obstacle cl' = Some ob /\
      (obst_is_convex M Sh op ob = true \/ (exists h p d, ob = HullPolygon h p d) \/
       exists g h, polygon_of M Sh cl' = Some g /\ sh_convex_hull Sh g = Ret h /\
         (sh_contains Sh h x = true \/ sh_contains Sh h xg = true \/
          exists j c' q, j <> i /\ nth_error out j = Some c' /\ polygon_of M Sh c' = Some q /\ sh_intersects Sh h q = true)).
  Proof.
    induction todo as [|cl0 todo IH]; intros counter before c out H i cl' Li Hi; cbn [convexify] in H.
    - injection H as <- <-. apply nth_error_Some_lt in Hi. lia.
    - destruct (c_obstacle cl0) as [ob0|] eqn:E0; [|discriminate].
      assert (Step : forall cl1 counter', convexify M Sh op x xg counter' (before ++ [cl1]) todo = Val (c, true, out) ->
        (nth_error out (List.length before) = Some cl1 -> i = List.length before -> cl' = cl1 -> exists ob, c_obstacle cl' = Some ob /\
      (obst_is_convex M Sh op ob = true \/ (exists h p d, ob = HullPolygon h p d) \/
       exists g h, polygon_of M Sh cl' = Some g /\ sh_convex_hull Sh g = Ret h /\
         (sh_contains Sh h x = true \/ sh_contains Sh h xg = true \/
          exists j c' q, j <> i /\ nth_error out j = Some c' /\ polygon_of M Sh c' = Some q /\ sh_intersects Sh h q = true))) ->
        exists ob, c_obstacle cl' = Some ob /\
      (obst_is_convex M Sh op ob = true \/ (exists h p d, ob = HullPolygon h p d) \/
       exists g h, polygon_of M Sh cl' = Some g /\ sh_convex_hull Sh g = Ret h /\
         (sh_contains Sh h x = true \/ sh_contains Sh h xg = true \/
          exists j c' q, j <> i /\ nth_error out j = Some c' /\ polygon_of M Sh c' = Some q /\ sh_intersects Sh h q = true))).
      { intros cl1 counter' Rc K. destruct (Nat.eq_dec i (List.length before)) as [Ei|Ni].
        - pose proof Rc as Rc'. apply convexify_spec in Rc' as (out2 & E & _).
          assert (Hn : nth_error out (List.length before) = Some cl1). { rewrite E, nth_error_app1, nth_error_app2, Nat.sub_diag; [reflexivity|lia|rewrite app_length; cbn; lia]. }
          apply K; auto. subst i. congruence.
        - apply (IH _ _ _ _ Rc i cl'); [rewrite app_length; cbn; lia|exact Hi]. }
      destruct (obst_is_convex M Sh op ob0) eqn:Cv; [apply (Step cl0 counter H); intros _ _ ->; eauto|].
      destruct (op_late op _); [discriminate|].
      pose proof (read_cache M Sh cl0) as (_ & _ & Q3 & _ & _ & Q6). pose proof (polygon_of_read M Sh cl0) as Q7.
      assert (Pg : polygon_of M Sh cl0 = snd (read_polygon M Sh cl0)) by reflexivity.
      destruct (read_polygon M Sh cl0) as [cl1 [g|]]; [|discriminate]. cbn [fst snd] in *. obinv H. apply of_res_val in E. destruct (_ && _) eqn:Cond.
      + obinv H. destruct (set_id counter IdNew) as [counter' oid]. eapply Step; [exact H|]. intros _ _ ->. cbn. eexists. split; [reflexivity|]. right. left. eauto.
      + apply (Step cl1 counter H). intros Hn -> ->. exists ob0. split; [congruence|]. right. right. exists g, a. split; [congruence|]. split; [exact E|].
        apply andb_false_iff in Cond as [Cond|Cond]; apply negb_false_iff, existsb_exists in Cond as (z & Hz & Cz).
        * destruct Hz as [<-|[<-|[]]]; auto.
        * right. right. destruct (polygon_of M Sh z) as [q|] eqn:Pz; [|discriminate]. cbn in Cz.
          apply convexify_spec in H as (out2 & Eo & Ln & F). apply in_app_iff in Hz as [Hz|Hz].
          -- apply In_nth_error in Hz as [j Hj]. assert (Lj := nth_error_Some_lt _ _ _ Hj). exists j, z, q. split; [lia|]. split; [|auto]. rewrite Eo, nth_error_app1, nth_error_app1; [exact Hj|exact Lj|rewrite app_length; cbn; lia].
          -- apply In_nth_error in Hz as [j Hj]. assert (Lj := nth_error_Some_lt _ _ _ Hj). rewrite <- Ln in Lj. destruct (nth_error out2 j) as [z'|] eqn:Z'; [|apply nth_error_None in Z'; lia].
             destruct (F j z z' Hj Z') as (_ & _ & _ & _ & Pe & _). exists (S (List.length before) + j)%nat, z', q. split; [lia|]. split; [|split; [congruence|exact Cz]].
             rewrite Eo, nth_error_app2; rewrite app_length; cbn [List.length]; [|lia]. replace (S (List.length before) + j - (List.length before + 1))%nat with j by lia. exact Z'.
  Qed.

  (** *** before and after *)
  Lemma region_in_polygon k c ob p : built M Sh den op x xg obs k c -> c_obstacle c = Some ob -> region_of ob p -> den (obst_polygon M Sh ob) p.
  Proof.
    intros (W & kp & adm & ar & ag & hull & ob' & A1 & A2 & A3 & A4 & A5 & A6 & A7 & A8 & _) Eo Hp.
    rewrite Eo in A7. injection A7 as <-. destruct A8 as [(o & E1 & _ & ->)|(id & ->)]; cbn [obst_region obst_polygon] in *.
    - apply cover; [apply W; rewrite E1; left; reflexivity|exact Hp].
    - apply (fg_union _ _ _ _ _ _ _ geometry). destruct Hp as [(o & Ho & Hp)|(h & -> & Hp)].
      + exists (ob_polygon M o). split; [apply in_app_iff; left; apply in_map, Ho|apply cover; auto].
      + exists h. split; [apply in_app_iff; right; left; reflexivity|exact Hp].
  Qed.
  Lemma polygon_in_region (exact_ : forall o p, In o obs -> den (ob_polygon M o) p -> body o p) k c ob p :
    built M Sh den op x xg obs k c -> c_obstacle c = Some ob -> den (obst_polygon M Sh ob) p -> region_of ob p.
  Proof.
    intros (W & kp & adm & ar & ag & hull & ob' & A1 & A2 & A3 & A4 & A5 & A6 & A7 & A8 & _) Eo Hp.
    rewrite Eo in A7. injection A7 as <-. destruct A8 as [(o & E1 & _ & ->)|(id & ->)]; cbn [obst_region obst_polygon] in *.
    - apply exact_; [apply W; rewrite E1; left; reflexivity|exact Hp].
    - apply (fg_union _ _ _ _ _ _ _ geometry) in Hp as (g & Hg & Hp). apply in_app_iff in Hg as [Hg|Hg].
      + apply in_map_iff in Hg as (o & <- & Ho). left. exists o. split; [exact Ho|]. apply exact_; auto.
      + right. destruct hull as [h|]; [|destruct Hg]. destruct Hg as [<-|[]]. eauto.
  Qed.
  Lemma before_after fuel counter a : call op fuel counter x xg obs = Val a -> a_flag a <> INCOMPLETE -> uncut op a ->
    exists k, entries M obs x (k_robot k) /\ entries M obs xg (k_goal k) /\
    forall i cl, nth_error (a_clusters a) i = Some cl -> exists c ob0 ob, built M Sh den op x xg obs k c /\ c_obstacle c = Some ob0 /\ c_obstacle cl = Some ob /\
      c_obstacles cl = c_obstacles c /\ c_kernel_points cl = c_kernel_points c /\ c_admissible_kernel cl = c_admissible_kernel c /\
      polygon_of M Sh cl = Some (obst_polygon M Sh ob0) /\ (forall p, obst_xr M ob0 = Val p -> obst_xr M ob = Val p) /\
      (ob = ob0 \/ exists h p d, ob = HullPolygon h p d /\ sh_convex_hull Sh (obst_polygon M Sh ob0) = Ret h /\ sh_contains Sh h x = false /\ sh_contains Sh h xg = false).
  Proof.
    intros H Fl Un. destruct (finished_built M Sh setl den body op x xg obs setl_ok geometry obstacles fuel counter a H Fl Un) as (k & cls2 & c2 & Ex & Eg & Bl & Dn & W).
    destruct (Dn symmetric) as [D _]. rewrite Forall_forall in Bl, D. exists k. split; [exact Ex|]. split; [exact Eg|]. intros i cl Hi.
    destruct W as [(_ & Ec)|(_ & c3 & t & Cv & _)].
    - rewrite Ec in Hi. apply nth_error_In in Hi. destruct (done_polygon M Sh cl (D cl Hi)) as (ob & Eo & Ep). exists cl, ob, ob. repeat (split; [auto; fail|]). auto.
    - destruct (convexify_top M Sh op x xg _ _ _ _ _ Cv) as [L F].
      assert (Ex' : exists c, nth_error cls2 i = Some c). { destruct (nth_error cls2 i) eqn:X; [eauto|]. apply nth_error_None in X. apply nth_error_Some_lt in Hi. lia. }
      destruct Ex' as [c Hc]. destruct (F i c cl Hc Hi) as (_ & F2 & F3 & F4 & F5 & F6). pose proof (nth_error_In _ _ Hc) as Hin. destruct (done_polygon M Sh c (D c Hin)) as (ob0 & Eo & Ep).
      destruct (convexify_xr _ _ _ _ _ _ Cv i c cl ob0 Hc Hi Eo) as (ob & Eob & Xr). exists c, ob0, ob. repeat (split; [auto; fail|]). split; [congruence|]. split; [exact Xr|].
      destruct F6 as [F6|(g & h & p & d & G1 & G2 & G3 & G4 & G5 & _)]; [left; congruence|]. right. exists h, p, d. split; [congruence|]. split; [congruence|]. auto.
  Qed.

  (** C107 *)
  Theorem C107_guarantee : forall fuel counter a, call op fuel counter x xg obs = Val a -> a_flag a <> INCOMPLETE -> uncut op a ->
    forall i cl, nth_error (a_clusters a) i = Some cl -> exists ob a1 a2 a3 adm,
      c_obstacle cl = Some ob /\ c_kernel_points cl = Some (a1, a2, a3) /\ c_admissible_kernel cl = Some adm /\
      obst_xr M ob = Val (triangle_mean (a1, a2, a3)) /\ in_hull [a1; a2; a3] (triangle_mean (a1, a2, a3)) /\
      (* the members are inside *)
      (forall o p, In o (c_obstacles cl) -> body o p -> region_of ob p) /\
      (* a replaced obstacle is convex *)
      (forall h p d, ob = HullPolygon h p d -> convex (region_of ob)) /\
      ((forall o, In o (c_obstacles cl) -> hull_right M den unique o a1 a2 a3 /\ forall k, In k [a1; a2; a3] -> tangents_of (ob_tangent_points M o) (body o) k) ->
       (* star-shaped from every point of the kernel triangle, which it contains *)
       (forall k, in_hull [a1; a2; a3] k -> starshaped_from (region_of ob) k) /\
       (forall k, in_hull [a1; a2; a3] k -> region_of ob k) /\
       (* robot and goal are not inside; outside, when the obstacle was not replaced *)
       (general_directions (directions_at M x (c_obstacles cl)) -> general_directions (directions_at M xg (c_obstacles cl)) ->
        (forall k, in_hull [a1; a2; a3] k -> interior (den adm) k) ->
        ((forall h p d, ob <> HullPolygon h p d) -> ~ region_of ob x /\ ~ region_of ob xg) /\
        ((forall h p d, ob = HullPolygon h p d -> forall q, q = x \/ q = xg -> sh_contains Sh h q = false -> ~ interior (den h) q) ->
         ~ interior (region_of ob) x /\ ~ interior (region_of ob) xg))).
  Proof.
    intros fuel counter a H Fl Un i cl Hi. destruct (before_after fuel counter a H Fl Un) as (k & Ex & Eg & Ba).
    destruct (Ba i cl Hi) as (c & ob0 & ob & Bt & Eo0 & Eo & Em & Ek & Ea & Ep & Xr & Cs).
    destruct (built_guarantee M Sh den body unique op x xg obs unique_ok geometry obstacles k c Ex Eg Bt) as (ob' & a1 & a2 & a3 & adm & G1 & G2 & G3 & G4 & G5 & G6 & G7).
    rewrite Eo0 in G1. injection G1 as <-. exists ob, a1, a2, a3, adm. split; [exact Eo|]. split; [congruence|]. split; [congruence|]. split; [apply Xr, G4|]. split; [exact G5|]. rewrite Em.
    assert (Rp : forall p, region_of ob0 p -> den (obst_polygon M Sh ob0) p) by (intros p; apply (region_in_polygon k c); auto).
    assert (Sub : forall p, region_of ob0 p -> region_of ob p).
    { intros p Hp. destruct Cs as [->|(h & q & d & -> & Ch & _)]; [exact Hp|]. cbn [obst_region]. apply (hulls _ h Ch), hull_mem, Rp, Hp. }
    assert (Cvx : forall h p d, ob = HullPolygon h p d -> convex (region_of ob)).
    { intros h p d ->. destruct Cs as [E0|(h' & q & d' & E0 & Ch & _)].
      - subst ob0. destruct Bt as (_ & kp & ? & ? & ? & hull & ob' & _ & _ & _ & _ & _ & _ & A7 & A8 & _). rewrite Eo0 in A7. injection A7 as <-. destruct A8 as [(o & _ & _ & E1)|(id & E1)]; discriminate.
      - injection E0 as <- <- <-. intros u v w Hu Hv Hw. cbn [obst_region] in *. apply (hulls _ _ Ch). apply (hulls _ _ Ch) in Hu. apply (hulls _ _ Ch) in Hv. apply (hull_region_convex _ u v w Hu Hv Hw). }
    split; [intros o p Ho Hp; apply Sub, (G6 o p Ho Hp)|]. split; [exact Cvx|]. intros Tg. destruct (G7 Tg) as [St Out].
    assert (Ne : c_obstacles c <> []).
    { intros El. destruct Bt as (_ & kp & ? & ? & ? & hull & ob' & _ & _ & Cp & _). unfold cones_polygon in Cp. rewrite El in Cp. cbn in Cp. discriminate. }
    assert (Ker : forall kk, in_hull [a1; a2; a3] kk -> region_of ob0 kk).
    { intros kk Hk. destruct (c_obstacles c) as [|o l] eqn:El; [congruence|]. destruct Bt as (W & _). rewrite El in W. 
      destruct (co_tangents _ _ _ _ _ obstacles o x (W o (or_introl eq_refl)) (or_introl eq_refl)) as [[Hb _]|[_ (t1 & t2 & _ & (Hb & _))]];
        (eapply (St kk Hk); [apply (G6 o _ (or_introl eq_refl) Hb)|apply on_seg_l]). }
    split; [|split].
    - intros kk Hk. destruct Cs as [->|(h & q & d & E & Ch & _)]; [apply St, Hk|]. intros p r Hp Hr. 
      apply (Cvx h q d E kk p r); [apply Sub, Ker, Hk|exact Hp|exact Hr].
    - intros kk Hk. apply Sub, Ker, Hk.
    - intros D1 D2 Int. destruct (Out D1 D2 Int) as [O1 O2]. split.
      + intros Nh. destruct Cs as [->|(h & q & d & -> & _)]; [auto|]. exfalso. apply (Nh h q d eq_refl).
      + intros Ct. destruct Cs as [->|(h & q & d & -> & Ch & X1 & X2)].
        * split; intros (r & R0 & Hr); [apply O1, Hr|apply O2, Hr]; rewrite dist_refl; exact R0.
        * split; [apply (Ct h q d eq_refl x)|apply (Ct h q d eq_refl xg)]; auto.
  Qed.

  (** a complete answer: what was not replaced is reported convex or cannot be replaced *)
  Theorem C107_maximal : forall fuel counter a, call op fuel counter x xg obs = Val a -> a_flag a = COMPLETE -> op_make_convex op = true -> uncut op a ->
    forall i cl, nth_error (a_clusters a) i = Some cl -> exists ob, c_obstacle cl = Some ob /\
      (obst_is_convex M Sh op ob = true \/ (exists h p d, ob = HullPolygon h p d) \/
       exists h, sh_convex_hull Sh (obst_polygon M Sh ob) = Ret h /\
         (sh_contains Sh h x = true \/ sh_contains Sh h xg = true \/
          exists j c' q, j <> i /\ nth_error (a_clusters a) j = Some c' /\ polygon_of M Sh c' = Some q /\ sh_intersects Sh h q = true)).
  Proof.
    intros fuel counter a H Fl Mc Un i cl Hi. destruct (before_after fuel counter a H ltac:(congruence) Un) as (k & _ & _ & Ba).
    destruct (Ba i cl Hi) as (c & ob0 & ob & _ & _ & Eo & _ & _ & _ & Ep & _ & Cs).
    destruct (finished_built M Sh setl den body op x xg obs setl_ok geometry obstacles fuel counter a H ltac:(congruence) Un) as (_ & cls2 & c2 & _ & _ & _ & _ & [[E _]|(_ & c3 & t & Cv & Ft)]); [congruence|].
    destruct t; [|congruence]. destruct (convexify_blocked _ _ _ _ _ Cv i cl ltac:(cbn; lia) Hi) as (ob1 & E1 & K). exists ob. split; [exact Eo|]. rewrite Eo in E1. injection E1 as <-.
    destruct K as [K|[K|(g & h & Pg & Ch & K)]]; auto. destruct Cs as [->|(h' & p & d & -> & _)]; [|right; left; eauto]. right. right. exists h. split; [congruence|exact K].
  Qed.

  (** different obstacles have no point in common, when the polygons are the obstacles *)
  Theorem C107_disjoint : (forall o p, In o obs -> den (ob_polygon M o) p -> body o p) -> (forall g h, sh_intersects Sh g h = false -> disjoint (den g) (den h)) ->
    forall fuel counter a, call op fuel counter x xg obs = Val a -> a_flag a <> INCOMPLETE -> uncut op a ->
    (forall cl a1 a2 a3 o, In cl (a_clusters a) -> c_kernel_points cl = Some (a1, a2, a3) -> In o (c_obstacles cl) ->
       hull_right M den unique o a1 a2 a3 /\ forall k, In k [a1; a2; a3] -> tangents_of (ob_tangent_points M o) (body o) k) ->
    forall i j ci cj oi oj, i <> j -> nth_error (a_clusters a) i = Some ci -> nth_error (a_clusters a) j = Some cj ->
    c_obstacle ci = Some oi -> c_obstacle cj = Some oj -> disjoint (region_of oi) (region_of oj).
  Proof.
    intros Exact Meet fuel counter a H Fl Un Tg i j ci cj oi oj N Hi Hj Oi Oj. destruct (before_after fuel counter a H Fl Un) as (k & Ex & Eg & Ba).
    assert (Sub : forall i cl ob, nth_error (a_clusters a) i = Some cl -> c_obstacle cl = Some ob -> forall p, region_of ob p -> den (obst_polygon M Sh ob) p).
    { intros i0 cl ob Hn Eo p Hp. destruct (Ba i0 cl Hn) as (c & ob0 & ob' & Bt & Eo0 & Eo' & _ & _ & _ & _ & _ & Cs). rewrite Eo in Eo'. injection Eo' as <-.
      destruct Cs as [->|(h & q & d & -> & _)]; [apply (region_in_polygon k c); auto|exact Hp]. }
    assert (Dj : disjoint (den (obst_polygon M Sh oi)) (den (obst_polygon M Sh oj))).
    { apply (C72_convex_disjoint M Sh setl setl_ok symmetric den op fuel counter x xg obs a H Fl Un Meet hulls) with (i := i) (j := j) (ci := ci) (cj := cj); auto.
      intros cl g Hc Pg. apply In_nth_error in Hc as [n Hn]. destruct (Ba n cl Hn) as (c & ob0 & ob & Bt & Eo0 & Eo & Em & Ek & _ & Ep & _ & _).
      destruct (built_guarantee M Sh den body unique op x xg obs unique_ok geometry obstacles k c Ex Eg Bt) as (ob' & a1 & a2 & a3 & adm & G1 & G2 & _ & _ & G5 & _ & G7).
      rewrite Eo0 in G1. injection G1 as <-. rewrite Ep in Pg. injection Pg as <-.
      destruct G7 as [St _]. { intros o Ho. apply (Tg cl a1 a2 a3 o (nth_error_In _ _ Hn)); congruence. }
      exists (triangle_mean (a1, a2, a3)). intros p r Hp Hr. apply (region_in_polygon k c); auto. apply (St _ G5 p r); [|exact Hr]. apply (polygon_in_region Exact k c); auto. }
    intros p [P1 P2]. apply (Dj p). split; [apply (Sub i ci oi Hi Oi p P1)|apply (Sub j cj oj Hj Oj p P2)].
  Qed.
End ConvexGuarantee.
Print Assumptions C107_guarantee.
Print Assumptions C107_maximal.
Print Assumptions C107_disjoint.
