(** The lit points of a stretch of the boundary lie, as seen from [k], between its ends. *)
From Coq Require Import Reals Lra Lia Psatz List Arith.
From Verif Require Import Num Spec S_PolHull L_Geom L_PolHull L_PolHull3 L_Wind L_Ring L_Ring2 L_Lit L_Lit2.
Import ListNotations.
Open Scope R_scope.

Section Core.
  Variables (V : list Pt) (A : region) (k : Pt).
  Hypothesis Enc : encloses V A.
  Hypothesis GP : forall v w, In v V -> In w V -> v <> w -> area2 k v w <> 0.
  Notation Ed := (Ed V).
  Notation lit := (lit A k).
  Let RO : ringed Ed A := proj1 (proj2 (proj2 (enc_ring V A Enc))).
  Notation pt m t := (vadd m (smul t (vsub m k))).

  Lemma vsub_nz y : y <> k -> vsub y k <> (0, 0).
  Proof. intros N E. apply N. destruct y, k. unv. injection E as E1 E2. apply pair_eq; lra. Qed.
  Lemma same_ray y y' s t : lit y -> lit y' -> 0 < s -> 0 < t -> smul s (vsub y k) = smul t (vsub y' k) -> y = y'.
  Proof.
    intros L L' Hs Ht E. assert (Ey : y' = along k y (s / t)).
    { destruct y as [a b], y' as [c d], k as [x z]. unv. injection E as E1 E2. apply pair_eq; apply (Rmult_eq_reg_l t); try lra.
      - replace (t * (x + s / t * (a - x))) with (t * x + s * (a - x)) by (field; lra). lra.
      - replace (t * (z + s / t * (b - z))) with (t * z + s * (b - z)) by (field; lra). lra. }
    assert (s / t = 1). { apply (lit_unique A k y); auto. { rewrite <- Ey; auto. } apply Rdiv_lt_0_compat; auto. }
    rewrite H, along_1 in Ey. auto.
  Qed.
  Lemma rays_apart y y' s t : lit y -> lit y' -> y <> y' -> -1 < s -> -1 < t -> pt y t <> pt y' s.
  Proof.
    intros L L' N Hs Ht E. apply N. apply (same_ray y y' (1 + t) (1 + s)); auto; try lra.
    destruct y, y', k. unv. injection E as E1 E2. apply pair_eq; lra.
  Qed.
  Lemma pt_0 y : pt y 0 = y.
  Proof. destruct y. unv. apply pair_eq; ring. Qed.
  Lemma ndot_apart m y t : lit m -> lit y -> m <> y -> 0 < t -> y <> k -> m <> k -> 0 < ndot (smul (-1) (smul t (vsub m k))) (vsub y k).
  Proof.
    intros L L' N Ht Ny Nm. apply ndot_off. intros s Hs E. destruct (Req_dec s 0) as [->|N0].
    - apply (vsub_nz m Nm). destruct m as [a b], k as [x z]. unv. injection E as E1 E2. apply pair_eq; nra.
    - destruct (Req_dec s 1) as [->|N1]. { apply (vsub_nz y Ny). rewrite <- E. unv. apply pair_eq; ring. }
      apply N. apply (same_ray m y ((1 - s) * t) s); auto; [nra|lra|]. destruct m, y, k. unv. injection E as E1 E2. apply pair_eq; lra.
  Qed.
  Lemma edge_cross a c m : Ed a c -> in_seg a c m -> lit m -> cross (vsub c a) (vsub m k) < 0.
  Proof.
    intros H I1 L. pose proof (lit_dir V A k Enc GP a c m H I1 L) as D. destruct I1 as (u & Hu & ->).
    replace (cross (vsub c a) (vsub (along a c u) k)) with (- area2 k a c) by (unv; ring). lra.
  Qed.
  Lemma below_inside a c m : Ed a c -> in_seg a c m -> lit m -> exists r, 0 < r < 1 /\ forall t, 0 < t < r -> inside Ed A (vsub m (smul t (vsub m k))).
  Proof.
    intros H I1 L. pose proof (edge_cross a c m H I1 L) as C. destruct (nbhd_line _ (vsub m k) _ (r_side _ _ RO a c m H I1)) as (r & Hr & HB).
    exists (Rmin (r / 2) (1 / 2)). pose proof (Rmin_l (r / 2) (1 / 2)). pose proof (Rmin_r (r / 2) (1 / 2)). split; [split; [apply Rmin_glb_lt; lra|lra]|].
    intros t Ht. replace (vsub m (smul t (vsub m k))) with (pt m (- t)) by (unv; apply pair_eq; ring).
    destruct (HB (- t)) as (HA1 & HA2 & HA3). { rewrite Rabs_Ropp, Rabs_right; lra. }
    assert (P : 0 < area2 a c (pt m (- t))).
    { replace (area2 a c (pt m (- t))) with (area2 a c m - t * cross (vsub c a) (vsub m k)) by (unv; ring). rewrite (area_on_seg a c m) by (apply in_seg_on; auto). nra. }
    split; [apply HA1; lra|]. intros O. apply HA3, area_on_seg in O. lra.
  Qed.

  Variables (p : Pt) (l : list Pt).
  Let y2 := last l p.
  Hypothesis Lp : lit p.
  Hypothesis Ll : lit y2.
  Hypothesis Ep : on_edges Ed p.
  Hypothesis El : on_edges Ed y2.
  Hypothesis HL : forall a c x, In (a, c) (links p l) -> on_seg a c x -> on_edges Ed x.
  Notation wx := (wx k p l).
  Notation free := (free k p l).
  Let Np : p <> k := edge_not_k V A k Enc GP p Ep.
  Let Nl : y2 <> k := edge_not_k V A k Enc GP y2 El.
  Let N1 := vsub_nz p Np.
  Let N2 := vsub_nz y2 Nl.

  Lemma free_above m t : lit m -> m <> p -> m <> y2 -> 0 < t -> free (pt m t).
  Proof.
    intros L M1 M2 Ht. apply free_off; auto.
    - intros a c H S1. apply (proj2 L t Ht). apply (r_on _ _ RO). eapply HL; eauto.
    - intros s Hs. apply rays_apart; auto; lra.
    - intros s Hs. apply (rays_apart m y2); auto; lra.
  Qed.
  Lemma far_above m t : lit m -> m <> k -> m <> p -> m <> y2 -> 0 < t -> wx (pt m t) = far_value k p l (smul t (vsub m k)).
  Proof.
    intros L Mk M1 M2 Ht. apply wx_far; auto.
    - intros E. apply (vsub_nz m Mk). destruct (vsub m k) as [a b]. unv. injection E as E1 E2. apply pair_eq; nra.
    - apply ndot_apart; auto.
    - apply (ndot_apart m y2); auto.
    - intros s Hs. replace (smul s (smul t (vsub m k))) with (smul (s * t) (vsub m k)) by (unv; apply pair_eq; ring). apply free_above; auto. nra.
  Qed.
  Lemma inside_free x : inside Ed A x -> free x.
  Proof.
    intros [Ax Nx]. apply free_off; auto.
    - intros a c H S1. apply Nx. eapply HL; eauto.
    - intros s Hs ->. destruct Hs as [Hs|<-]; [apply (proj2 Lp s); auto|]. rewrite pt_0 in Nx. auto.
    - intros s Hs E. subst x. destruct Hs as [Hs|<-]; [apply (proj2 Ll s); auto|]. apply Nx. fold y2. rewrite pt_0. auto.
  Qed.
  Lemma wx_inside x x' : inside Ed A x -> inside Ed A x' -> wx x' = wx x.
  Proof.
    intros H H'. pose proof (r_link _ _ RO x x' H H') as J. induction J as [x y J|x y z J1 IH1 J2 IH2].
    - apply wx_steady; auto. intros z Hz. apply inside_free, J; auto.
    - assert (Hy : inside Ed A y). { clear - J1 H'. assert (inside Ed A x /\ inside Ed A y) by (clear - J1; induction J1 as [x y J|x y z J1 IH1 J2 IH2]; [split; apply J; [apply on_seg_l|apply on_seg_r]|tauto]). tauto. }
      rewrite IH2, IH1; auto.
  Qed.
  (** crossing the boundary off the chain *)
  Lemma no_jump a c m : Ed a c -> in_seg a c m -> lit m -> m <> p -> m <> y2 -> (forall e f, In (e, f) (links p l) -> ~ on_seg e f m) ->
    exists r, 0 < r < 1 /\ forall t, 0 < t < r -> wx (vsub m (smul t (vsub m k))) = wx (pt m t).
  Proof.
    intros H I1 L M1 M2 Off. pose proof (edge_cross a c m H I1 L) as C. destruct (nbhd_line _ (vsub m k) _ (r_side _ _ RO a c m H I1)) as (r & Hr & HB).
    exists (Rmin (r / 2) (1 / 2)). pose proof (Rmin_l (r / 2) (1 / 2)). pose proof (Rmin_r (r / 2) (1 / 2)). split; [split; [apply Rmin_glb_lt; lra|lra]|].
    intros t Ht. apply wx_steady; auto. intros z (u & Hu & ->).
    replace (along (pt m t) (vsub m (smul t (vsub m k))) u) with (pt m ((1 - 2 * u) * t)) by (unv; apply pair_eq; ring).
    set (g := (1 - 2 * u) * t). assert (G : Rabs g < r /\ -1 < g). { split; [|unfold g; nra]. apply Rabs_def1; unfold g; nra. }
    destruct (HB g (proj1 G)) as (_ & _ & HA3). apply free_off; auto.
    - intros e f Hl S1. pose proof (HA3 (HL _ _ _ Hl S1)) as O. apply area_on_seg in O.
      replace (area2 a c (pt m g)) with (area2 a c m + g * cross (vsub c a) (vsub m k)) in O by (unv; ring). rewrite (area_on_seg a c m) in O by (apply in_seg_on; auto).
      assert (E : g = 0) by nra. rewrite E, pt_0 in S1. eapply Off; eauto.
    - intros s Hs. apply rays_apart; auto; lra.
    - intros s Hs. apply (rays_apart m y2); auto; lra.
  Qed.
  (** crossing the boundary on the chain *)
  Lemma chain_jump a c l1 l2 a' c' m : l = l1 ++ c :: l2 -> last l1 p = a -> Ed a' c' -> in_seg a c m -> in_seg a' c' m ->
    (exists g, 0 < g /\ vsub c a = smul g (vsub c' a')) -> lit m -> m <> p -> m <> y2 ->
    (forall e f, In (e, f) (links p l1) \/ In (e, f) (links c l2) -> ~ on_seg e f m) ->
    exists r, 0 < r < 1 /\ forall t, 0 < t < r -> wx (vsub m (smul t (vsub m k))) = wx (pt m t) + 2 * PI.
  Proof.
    intros E1 E2 H I1 I2 (g & Hg & Eg) L M1 M2 Off. pose proof (edge_cross a' c' m H I2 L) as C.
    assert (C' : cross (vsub c a) (vsub m k) < 0). { rewrite Eg. replace (cross (smul g (vsub c' a')) (vsub m k)) with (g * cross (vsub c' a') (vsub m k)) by (unv; ring). nra. }
    destruct (below_inside a' c' m H I2 L) as (r0 & Hr0 & HB).
    destruct (wx_jump k p l N1 m (vsub m k) a c l1 l2 E1 E2) as (r & Hr & J).
    - destruct I1 as (u & Hu & ->). exists u. auto.
    - exact C'.
    - apply off_links. intros e f Hl. apply Off; auto.
    - apply off_links. intros e f Hl. apply Off; auto.
    - apply off_ray; auto. intros s Hs Em. apply (rays_apart m p s 0); auto; try lra. rewrite pt_0. auto.
    - apply off_ray; auto. intros s Hs Em. apply (rays_apart m y2 s 0); auto; try lra. rewrite pt_0. auto.
    - exists r0. split; [lra|]. intros t Ht. split; [apply free_above; auto; lra|apply inside_free; apply HB; auto].
    - exists (Rmin r r0). pose proof (Rmin_l r r0). pose proof (Rmin_r r r0). split; [split; [apply Rmin_glb_lt; lra|lra]|]. intros t Ht. apply J. lra.
  Qed.
  Lemma chain_between a c l1 l2 a' c' m a4 c4 y4 : l = l1 ++ c :: l2 -> last l1 p = a -> Ed a' c' -> in_seg a c m -> in_seg a' c' m ->
    (exists g, 0 < g /\ vsub c a = smul g (vsub c' a')) -> lit m -> m <> p -> m <> y2 ->
    (forall e f, In (e, f) (links p l1) \/ In (e, f) (links c l2) -> ~ on_seg e f m) ->
    Ed a4 c4 -> in_seg a4 c4 y4 -> lit y4 -> y4 <> p -> y4 <> y2 -> (forall e f, In (e, f) (links p l) -> ~ on_seg e f y4) ->
    between (vsub p k) (vsub y2 k) (vsub m k).
  Proof.
    intros E1 E2 H I1 I2 G L M1 M2 Off H4 I4 L4 M3 M4 Off4.
    destruct (chain_jump a c l1 l2 a' c' m E1 E2 H I1 I2 G L M1 M2 Off) as (r1 & Hr1 & J1).
    destruct (no_jump a4 c4 y4 H4 I4 L4 M3 M4 Off4) as (r2 & Hr2 & J2).
    destruct (below_inside a' c' m H I2 L) as (r3 & Hr3 & B1). destruct (below_inside a4 c4 y4 H4 I4 L4) as (r4 & Hr4 & B2).
    set (t := Rmin (Rmin r1 r2) (Rmin r3 r4) / 2).
    assert (T : 0 < t /\ t < r1 /\ t < r2 /\ t < r3 /\ t < r4).
    { assert (0 < Rmin (Rmin r1 r2) (Rmin r3 r4)) by (repeat apply Rmin_glb_lt; lra). pose proof (Rmin_l (Rmin r1 r2) (Rmin r3 r4)). pose proof (Rmin_r (Rmin r1 r2) (Rmin r3 r4)).
      pose proof (Rmin_l r1 r2). pose proof (Rmin_r r1 r2). pose proof (Rmin_l r3 r4). pose proof (Rmin_r r3 r4). unfold t. lra. }
    destruct T as (T0 & T1 & T2 & T3 & T4).
    assert (Mk : m <> k) by (apply (edge_not_k V A k Enc GP); exists a', c'; split; [auto|apply in_seg_on; auto]).
    assert (Yk : y4 <> k) by (apply (edge_not_k V A k Enc GP); exists a4, c4; split; [auto|apply in_seg_on; auto]).
    pose proof (far_above m t L Mk M1 M2 T0) as F1. pose proof (far_above y4 t L4 Yk M3 M4 T0) as F2.
    specialize (J1 t ltac:(lra)). specialize (J2 t ltac:(lra)).
    pose proof (wx_inside _ _ (B1 t ltac:(lra)) (B2 t ltac:(lra))) as W.
    pose proof (far_between k p l (smul t (vsub m k)) (smul t (vsub y4 k)) N1 N2 (ndot_apart m p t L Lp M1 T0 Np Mk) (ndot_apart m y2 t L Ll M2 T0 Nl Mk) ltac:(lra)) as [Q1 Q2].
    assert (X1 : cross (vsub p k) (smul t (vsub m k)) = t * cross (vsub p k) (vsub m k)) by (unv; ring).
    assert (X2 : cross (smul t (vsub m k)) (vsub (last l p) k) = t * cross (vsub m k) (vsub (last l p) k)) by (unv; ring).
    rewrite X1, X2 in Q1, Q2. split; intros Hc.
    - destruct (Q1 Hc). split; [nra|]. unfold y2. nra.
    - destruct (Q2 Hc); [left; nra|right; unfold y2; nra].
  Qed.
End Core.
