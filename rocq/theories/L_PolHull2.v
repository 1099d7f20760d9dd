(** polygon_kernel_starshaped_hull in a world whose shapely answers are right. *)
From Coq Require Import QArith Reals Lra Psatz List Bool Arith ZArith Lia.
From Verif Require Import Num Spec M_Cg M_Motion M_Obstacle M_PolHull S_PolHull L_Geom L_Cg L_PolHull.
Import ListNotations.
Open Scope R_scope.

Lemma lit_R q : @nlit R NumR q = Q2R q.
Proof. reflexivity. Qed.
Lemma lo_R : @nlit R NumR (1 # 10000) = 1 / 10000.
Proof. rewrite lit_R. unfold Q2R. cbn. lra. Qed.
Lemma hi_R : @nlit R NumR (9999 # 10000) = 9999 / 10000.
Proof. rewrite lit_R. unfold Q2R. cbn. lra. Qed.
Lemma far_R : @nlit R NumR 100000 = 100000.
Proof. rewrite lit_R. unfold Q2R. cbn. lra. Qed.
Lemma line_seg_along (a b : Pt) : line_seg (a : pt R) b = (along a b (1 / 10000), along a b (9999 / 10000)).
Proof. unfold line_seg. rewrite lo_R, hi_R. destruct a, b. reflexivity. Qed.
Lemma ray_seg_along (a b c : Pt) : ray_seg (a : pt R) b c = (vadd a (smul (1 / 10000) (vsub c b)), vadd a (smul 100000 (vsub c b))).
Proof. unfold ray_seg. rewrite lo_R, far_R. destruct a, b, c. reflexivity. Qed.
Lemma along_along' (a b : Pt) lo hi u : along (along a b lo) (along a b hi) u = along a b (lo + u * (hi - lo)).
Proof. destruct a, b; unv; apply pair_eq; ring. Qed.
Lemma line_seg_on (a b x : Pt) : seg_region (line_seg (a : pt R) b) x -> on_seg a b x.
Proof.
  rewrite line_seg_along. intros (t & Ht & ->). cbn [fst snd]. rewrite along_along'.
  exists (1 / 10000 + t * (9999 / 10000 - 1 / 10000)). split; [lra|reflexivity].
Qed.
Lemma on_seg_sub (a b u x : Pt) : on_seg a b u -> on_seg u b x -> on_seg a b x.
Proof.
  intros (s & Hs & ->) (t & Ht & ->). exists (s + t * (1 - s)). split; [split; nra|].
  destruct a, b; unv; apply pair_eq; ring.
Qed.
Lemma on_seg_end (a b : Pt) : on_seg a b b.
Proof. exists 1. split; [lra|]. destruct a, b; unv; apply pair_eq; ring. Qed.
Lemma on_seg_start (a b : Pt) : on_seg a b a.
Proof. exists 0. split; [lra|]. destruct a, b; unv; apply pair_eq; ring. Qed.
Lemma ray_points (a b c x : Pt) : seg_region (ray_seg (a : pt R) b c) x <-> exists t, 1 / 10000 <= t <= 100000 /\ x = vadd a (smul t (vsub c b)).
Proof.
  rewrite ray_seg_along. unfold seg_region. cbn [fst snd]. split.
  - intros (u & Hu & ->). exists (1 / 10000 + u * (100000 - 1 / 10000)). split; [lra|]. destruct a, b, c; unv; apply pair_eq; ring.
  - intros (t & Ht & ->). exists ((t - 1 / 10000) / (100000 - 1 / 10000)). split.
    + assert (I : 0 < / (100000 - 1 / 10000)) by (apply Rinv_0_lt_compat; lra).
      split; [unfold Rdiv; nra|]. apply Rmult_le_reg_r with (100000 - 1 / 10000); [lra|]. unfold Rdiv. rewrite Rmult_assoc, Rinv_l by lra. lra.
    + destruct a, b, c; unv; apply pair_eq; field; lra.
Qed.
Lemma intersection_points_region (g : geom R) u : In u (intersection_points g) -> geom_region g u.
Proof.
  destruct g; cbn [intersection_points geom_region]; intros H; try (destruct H; fail).
  - left. auto.
  - apply in_concat in H as (l & Hl & Hu). exists l. split; auto. left. auto.
  - apply in_flat_map in H as (p & Hp & Hu). exists p. split; auto. destruct p as [q|c]; [|destruct Hu]. destruct Hu as [<-|[]]. reflexivity.
Qed.

Section Right.
  Variable A : region.
  Variable K V : list (pt R).
  Variable W : pol_world R.
  Hypothesis F : faithful A K W.
  Hypothesis Kne : K <> [].

  Lemma r_v v : In v V -> spanned K V v.
  Proof. intros Hv. destruct K as [|k K']; [congruence|]. exists k, v. split; [left; auto|]. split; auto. apply on_seg_end. Qed.
  Lemma r_k k v : In k K -> In v V -> spanned K V k.
  Proof. intros Hk Hv. exists k, v. repeat split; auto. apply on_seg_start. Qed.
  Lemma r_cross_in s s' c : pw_cross W s s' = XPoint c -> seg_region s c /\ seg_region s' c.
  Proof. intros E. pose proof (f_cross _ _ _ F s s') as H. rewrite E in H. apply (H c). auto. Qed.
  Lemma r_cross k v s c : In k K -> In v V -> pw_cross W (line_seg k v) s = XPoint c -> spanned K V c.
  Proof. intros Hk Hv E. apply r_cross_in in E as [H _]. exists k, v. repeat split; auto. apply line_seg_on; auto. Qed.
  Lemma r_meet_in k v u : In u (intersection_points (pw_meet W (line_seg k v))) -> on_seg k v u /\ A u.
  Proof. intros H. apply intersection_points_region in H. apply (f_meet _ _ _ F) in H as [H HA]. split; auto. apply line_seg_on; auto. Qed.
  Lemma r_meet k v u : In k K -> In v V -> In u (intersection_points (pw_meet W (line_seg k v))) -> spanned K V u.
  Proof. intros Hk Hv H. apply r_meet_in in H as [H _]. exists k, v. auto. Qed.
  Lemma r_shift k v u u' s : In k K -> In v V -> In u (intersection_points (pw_meet W (line_seg k v))) ->
    pw_cross W s (line_seg u v) = XPoint u' -> spanned K V u'.
  Proof.
    intros Hk Hv H E. apply r_meet_in in H as [H _]. apply r_cross_in in E as [_ E]. exists k, v. repeat split; auto.
    eapply on_seg_sub; eauto. apply line_seg_on; auto.
  Qed.
  Lemma visible_open v : visible W K v = true <-> forall k, In k K -> open_behind A k v.
  Proof.
    unfold visible. rewrite forallb_forall. split; intros H k Hk; specialize (H k Hk).
    - rewrite (f_disjoint _ _ _ F) in H. intros t Ht. apply H. apply ray_points. eauto.
    - rewrite (f_disjoint _ _ _ F). intros x Hx. apply ray_points in Hx as (t & Ht & ->). apply H. auto.
  Qed.
End Right.

(** *** One kernel point *)
Lemma on_seg_same (a x : Pt) : on_seg a a x -> x = a.
Proof. intros (t & _ & ->). destruct a; unv; apply pair_eq; ring. Qed.
Lemma two_rays (k v w x : Pt) : area2 k v w <> 0 -> on_seg k v x -> on_seg k w x -> x = k.
Proof.
  intros N (s & _ & Ex) (t & _ & Et). assert (Q : s * area2 k v w = 0).
  { assert (E : area2 k x w = 0) by (rewrite Et; destruct k, w; unv; ring).
    rewrite Ex in E. rewrite <- E. destruct k, v, w; unv; ring. }
  apply Rmult_integral in Q as [->|Q]; [|contradiction]. rewrite Ex. destruct k, v; unv; apply pair_eq; ring.
Qed.

Section Single.
  Variable A : region.
  Variable k : pt R.
  Variable W : pol_world R.
  Hypothesis F : faithful A [k] W.

  Lemma no_overlap v p q v0 a b : p = q \/ (q = v0 /\ on_seg k v0 p /\ area2 k v v0 <> 0) ->
    pw_cross W (line_seg k v) (line_seg p q) <> XLine a b.
  Proof.
    intros H E. pose proof (f_cross _ _ _ F (line_seg k v) (line_seg p q)) as C. rewrite E in C. destruct C as [Ne C].
    destruct (proj2 (C a) (on_seg_start a b)) as [A1 A2]. destruct (proj2 (C b) (on_seg_end a b)) as [B1 B2].
    apply line_seg_on in A1, A2, B1, B2. apply Ne. destruct H as [<-|(-> & On & N)].
    - apply on_seg_same in A2, B2. congruence.
    - rewrite (two_rays k v v0 a), (two_rays k v v0 b); auto; eapply on_seg_sub; eauto.
  Qed.

  Definition single_inv (done : list (pt R)) (s : aug_state R) : Prop :=
    (a_e1 s = 0 /\ a_e2 s = 0)%Z \/ exists i1 i2 p v0, a_e1 s = Z.of_nat i1 /\ a_e2 s = Z.of_nat i2 /\
      nth_error (a_sv s) i1 = Some p /\ nth_error (a_sv s) i2 = Some v0 /\ In v0 done /\ on_seg k v0 p.

  Lemma nth_py {B} (l : list B) i a : nth_error l i = Some a -> py_get l (Z.of_nat i) = Ret a.
  Proof.
    intros H. assert (L : (i < length l)%nat) by (apply nth_error_Some; congruence).
    unfold py_get. rewrite py_index_nat by auto. rewrite H. auto.
  Qed.
  Lemma augment_end (sv : list (pt R)) (u v vp : pt R) : exists e1 e2 sv' i1 i2, augment (sv ++ [v]) u v vp = Ret (sv', e1, e2) /\ e1 = Z.of_nat i1 /\ e2 = Z.of_nat i2 /\
    nth_error sv' i1 = Some u /\ nth_error sv' i2 = Some v /\ sv' <> [].
  Proof.
    destruct (is_ccw u v vp) eqn:C.
    - rewrite augment_swap by auto. exists (Z.of_nat (length sv)), (Z.of_nat (length sv) + 1)%Z, (sv ++ [u; v]), (length sv), (S (length sv)).
      split; auto. split; auto. split; [lia|]. rewrite nth_error_app2, Nat.sub_diag by lia. split; auto.
      rewrite nth_error_app2 by lia. replace (S (length sv) - length sv)%nat with 1%nat by lia. split; [auto|destruct sv; discriminate].
    - rewrite augment_plain by auto. exists (Z.of_nat (length (sv ++ [v]))), (Z.of_nat (length (sv ++ [v])) - 1)%Z, ((sv ++ [v]) ++ [u]), (length (sv ++ [v])), (length sv).
      split; auto. split; auto. split; [rewrite app_length; cbn [length]; lia|]. rewrite nth_error_app2, Nat.sub_diag by lia. split; auto.
      rewrite <- app_assoc. rewrite nth_error_app2, Nat.sub_diag by lia. split; [auto|destruct sv; discriminate].
  Qed.

  Lemma single_step (done : list (pt R)) (v vp : pt R) s vb : (forall v0 : pt R, In v0 done -> area2 k v v0 <> 0) -> single_inv done s ->
    exists s' vb', vertex_step W [k] v vp (s, vb) = Ret (s', vb') /\ single_inv (v :: done) s'.
  Proof.
    intros G I. unfold vertex_step. destruct (visible W [k] v) eqn:Vi.
    2:{ exists s, vb. split; auto. destruct I as [I|(i1 & i2 & p & v0 & H)]; [left; auto|right]. exists i1, i2, p, v0. simpl. tauto. }
    cbv zeta. assert (Ea : add_vertex W [k] v (a_sv s) = a_sv s ++ [v]) by reflexivity. rewrite Ea. clear Ea.
    assert (Adj : exists sv2 adj, (match a_sv s ++ [v] with
            | [] => Ret (a_sv s ++ [v], false)
            | _ => bind (py_get (a_sv s ++ [v]) (a_e1 s)) (fun e1 => bind (py_get (a_sv s ++ [v]) (a_e2 s)) (fun e2 =>
                     adjust_loop W v e2 (line_seg e1 e2) (a_e1 s) [k] (a_sv s ++ [v]) false))
            end) = Ret (sv2, adj) /\ sv2 <> [] /\ (adj = false -> sv2 = a_sv s ++ [v]) /\ single_inv (v :: done) (AS sv2 (a_e1 s) (a_e2 s) (a_inc s))).
    { destruct (a_sv s ++ [v]) as [|h t] eqn:Es; [destruct (a_sv s); discriminate|]. rewrite <- Es.
      assert (Ne : a_sv s ++ [v] <> []) by (rewrite Es; discriminate).
      destruct I as [[E1 E2]|(i1 & i2 & p & v0 & E1 & E2 & N1 & N2 & In0 & On)].
      - rewrite E1, E2. assert (G0 : py_get (a_sv s ++ [v]) 0 = Ret h) by (rewrite Es; reflexivity). rewrite G0. cbn [bind adjust_loop].
        assert (Si : single_inv (v :: done) (AS (a_sv s ++ [v]) 0 0 (a_inc s))) by (left; auto).
        destruct (pw_cross W (line_seg k v) (line_seg h h)) as [|c|a b] eqn:Ec.
        + exists (a_sv s ++ [v]), false. auto.
        + rewrite G0. cbn [bind]. rewrite norm2_diff_0. nR. destruct (Rltb_spec (norm2_diff h c) 0) as [L|L].
          * pose proof (norm2_diff_nonneg h c). lra.
          * exists (a_sv s ++ [v]), true. repeat split; auto.
        + exfalso. eapply (no_overlap v h h h); [left; reflexivity|exact Ec].
      - assert (M1 : nth_error (a_sv s ++ [v]) i1 = Some p) by (rewrite nth_error_app1; auto; apply nth_error_Some; congruence).
        assert (M2 : nth_error (a_sv s ++ [v]) i2 = Some v0) by (rewrite nth_error_app1; auto; apply nth_error_Some; congruence).
        assert (Si : single_inv (v :: done) (AS (a_sv s ++ [v]) (a_e1 s) (a_e2 s) (a_inc s))).
        { right. exists i1, i2, p, v0. cbn [a_sv a_e1 a_e2]. simpl. tauto. }
        rewrite E1, E2 in *. rewrite (nth_py _ _ _ M1), (nth_py _ _ _ M2). cbn [bind adjust_loop].
        destruct (pw_cross W (line_seg k v) (line_seg p v0)) as [|c|a b] eqn:Ec.
        + exists (a_sv s ++ [v]), false. auto.
        + rewrite (nth_py _ _ _ M1). cbn [bind]. nR. destruct (Rltb_spec (norm2_diff v0 c) (norm2_diff v0 p)) as [L|L].
          * assert (Li : (i1 < length (a_sv s ++ [v]))%nat) by (apply nth_error_Some; congruence).
            unfold py_set. rewrite py_index_nat by auto. cbn [bind].
            assert (Di : i1 <> i2).
            { intros <-. rewrite M1 in M2. injection M2 as ->. pose proof (norm2_diff_nonneg v0 c). rewrite norm2_diff_0 in L. lra. }
            eexists _, true. split; [reflexivity|]. split; [destruct (firstn i1 (a_sv s ++ [v])); discriminate|]. split; [discriminate|].
            right. exists i1, i2, c, v0. cbn [a_sv a_e1 a_e2]. rewrite set_nth, set_nth_other by auto.
            repeat split; auto; [simpl; auto|]. apply (r_cross_in A [k] W F) in Ec as [_ Ec]. apply line_seg_on in Ec. eapply on_seg_sub; eauto.
          * exists (a_sv s ++ [v]), true. repeat split; auto.
        + exfalso. eapply no_overlap; [|exact Ec]. right. split; [reflexivity|]. auto. }
    destruct Adj as (sv2 & adj & -> & Ne2 & Ha & Si). cbn [bind].
    assert (Aug : exists s3, (if adj then Ret (AS sv2 (a_e1 s) (a_e2 s) (a_inc s)) else augment_loop W [k] v vp vb 0 [k] (AS sv2 (a_e1 s) (a_e2 s) (a_inc s))) = Ret s3 /\
      a_sv s3 <> [] /\ single_inv (v :: done) s3).
    { destruct adj; [eexists; split; [reflexivity|auto]|]. rewrite (Ha eq_refl) in *. cbn [augment_loop a_sv a_inc].
      assert (Ef : filter (fun kp : pt R => negb (pt_eqb kp k)) [k] = []).
      { cbn [filter]. unfold pt_eqb. nR. destruct (Reqb_spec (fst k) (fst k)); [|congruence]. destruct (Reqb_spec (snd k) (snd k)); [reflexivity|congruence]. }
      rewrite Ef. cbn [forallb shift_u bind].
      assert (Go : forall (u : pt R) f, on_seg k v u -> exists s3, bind (augment (a_sv s ++ [v]) u v vp) (fun '(sv, e1, e2) => Ret (AS sv e1 e2 (f sv))) = Ret s3 /\
        a_sv s3 <> [] /\ single_inv (v :: done) s3).
      { intros u f On. destruct (augment_end (a_sv s) u v vp) as (e1 & e2 & sv' & i1 & i2 & -> & -> & -> & N1 & N2 & Ne). cbn [bind].
        eexists. split; [reflexivity|]. cbn [a_sv]. split; auto. right. exists i1, i2, u, v. cbn [a_sv a_e1 a_e2]. simpl. tauto. }
      assert (Idle : exists s3, Ret (AS (a_sv s ++ [v]) (a_e1 s) (a_e2 s) (a_inc s)) = Ret s3 /\ a_sv s3 <> [] /\ single_inv (v :: done) s3).
      { eexists. split; [reflexivity|auto]. }
      destruct (pw_meet W (line_seg k v)) eqn:Em.
      1:{ destruct (_ && _); [|exact Idle]. apply (Go k (fun _ => firstn 0 (a_inc s) ++ true :: skipn 1 (a_inc s))). apply on_seg_start. }
      all: destruct (find _ _) as [u|] eqn:Fd; [|exact Idle]; apply find_some in Fd as [Iu _]; rewrite <- Em in Iu;
        apply (r_meet_in A [k] W F) in Iu as [On _]; apply (Go u (fun _ => a_inc s)); auto. }
    destruct Aug as (s3 & -> & Ne3 & Si3). cbn [bind].
    destruct (exists_last_or_nil (a_sv s3)) as [E|(l & b & E)]; [congruence|]. rewrite E, py_last. cbn [bind]. eauto.
  Qed.
  Lemma single_loop (vs : list (pt R)) : forall (done : list (pt R)) (vp : pt R) s vb, NoDup vs -> (forall v, In v vs -> ~ In v done) ->
    (forall v w : pt R, In v vs -> In w (vs ++ done) -> v <> w -> area2 k v w <> 0) -> single_inv done s ->
    exists s' vb', vertex_loop W [k] vp vs (s, vb) = Ret (s', vb').
  Proof.
    induction vs as [|v vs IH]; intros done vp s vb Nd Nin G I; cbn [vertex_loop]; [eauto|].
    inversion Nd; subst. destruct (single_step done v vp s vb) as (s1 & vb1 & -> & I1); auto.
    { intros v0 H0. apply G; [simpl; auto|apply in_or_app; auto|]. intros <-. eapply Nin; [left; reflexivity|auto]. }
    cbn [bind]. apply (IH (v :: done)); auto.
    - intros w Hw [<-|Hd]; [contradiction|]. eapply Nin; [right; eauto|auto].
    - intros a b Ha Hb. apply G; [simpl; auto|]. apply in_app_iff in Hb as [Hb|[<-|Hb]]; simpl; rewrite ?in_app_iff; auto.
  Qed.
End Single.
