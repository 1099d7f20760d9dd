(** Properties C50-C53: obstacles/polygon.py.  Points x with coordinates in the obstacle frame. *)
From Coq Require Import Reals Lra Lia List Bool Arith ZArith Psatz.
From Verif Require Import Num Spec M_Cg M_ConePolygon M_Motion M_Obstacle M_Polygon L_Geom L_Polar L_Cg L_Atan2 L_Gen L_Obstacle L_Ellipse L_Polygon.
Import ListNotations.
Open Scope R_scope.
Local Arguments affine_transform : simpl never.

(** C50, for every point off the boundary: [ts] is a continuous choice of the angles under which the closed boundary is seen.
    The answer is empty when the boundary winds around x or when it is seen over a full turn, and otherwise
    consists of the first vertex with the largest and the first vertex with the smallest angle. *)
Theorem C50_tangent_points_general : forall m (v : list Pt) x fi fo ts, good fi -> good fo -> v <> [] ->
  Forall2 (sees x) (closed_chain v) ts -> small_steps ts ->
  (last ts 0 <> hd 0 ts -> p_tangent_points m v (shown m fi x) fi fo = Ret []) /\
  (last ts 0 = hd 0 ts -> exists i j, first_max ts i /\ first_min ts j /\
     (2 * PI <= nth i ts 0 - nth j ts 0 -> p_tangent_points m v (shown m fi x) fi fo = Ret []) /\
     (nth i ts 0 - nth j ts 0 < 2 * PI -> p_tangent_points m v (shown m fi x) fi fo =
        Ret [shown m fo (nth i (closed_chain v) (0, 0)); shown m fo (nth j (closed_chain v) (0, 0))])).
Proof.
  intros m v x fi fo ts Hi Ho NE F St. unfold p_tangent_points. rewrite from_shown by exact Hi. cbn [bind]. cbv zeta.
  destruct (unwrapped_lift x _ _ F St) as (c & U0). assert (U : unwrapped (map (angle_to x) (circular v)) = map (fun s => s + c) ts) by exact U0.
  rewrite U. clear U U0.
  assert (L : length ts = length (closed_chain v)) by (symmetry; eapply F2_length; eauto).
  assert (L1 : (0 < length ts)%nat). { rewrite L. destruct v; [congruence|]. cbn. lia. }
  rewrite map_length. destruct (Nat.eqb_spec (length ts) 0) as [Z|_]; [lia|].
  assert (Q : map (fun s => s + c) ts <> []) by (destruct ts; [cbn in L1; lia|discriminate]).
  pose proof (first_max_shift _ _ _ (argmax_spec _ Q)) as MX. pose proof (first_min_shift _ _ _ (argmin_spec _ Q)) as MN.
  rewrite (last_nth (map _ ts)), map_length. rewrite !nth_shift by first [lia|apply MX|apply MN]. rewrite <- last_nth.
  replace (nth 0 ts 0) with (hd 0 ts) by (destruct ts; reflexivity).
  set (i := argmax (map (fun s => s + c) ts)) in *. set (j := argmin (map (fun s => s + c) ts)) in *.
  pose proof PI_RGT_0 as PP. pose proof PI2_3_2 as P3. unfold PI2 in P3.
  (* first and last entry see the same vertex *)
  assert (K : exists k : Z, last ts 0 = hd 0 ts + 2 * PI * IZR k).
  { destruct v as [|p v]; [congruence|]. cbn [closed_chain] in F, L. inversion F as [|? t ? ts' Sp F' E1 E2]; subst ts.
    destruct ts' as [|t2 ts'] using rev_ind; [destruct v; inversion F'|]. clear IHts'.
    apply Forall2_app_inv_l in F' as (l1 & l2 & F1 & F2 & E). inversion F2 as [|? t3 ? ? Sq F3]; subst. inversion F3; subst.
    change (t :: l1 ++ [t3]) with ((t :: l1) ++ [t3]) in *. apply app_inj_tail in E as [-> ->].
    change (t :: l1 ++ [t3]) with ((t :: l1) ++ [t3]). rewrite last_last. cbn [app hd].
    destruct (sees_mod _ _ _ _ Sq Sp) as (k & Hk). exists k. exact Hk. }
  destruct K as (k & K). split.
  - intros D. destruct (Rltb_spec (1 / 100000) (Rabs (hd 0 ts + c - (last ts 0 + c)))) as [_|W]; [reflexivity|exfalso].
    apply D. assert (Y : last ts 0 - hd 0 ts = 2 * PI * IZR k) by lra. apply z_unique in Y; [lra|].
    replace (hd 0 ts + c - (last ts 0 + c)) with (- (last ts 0 - hd 0 ts)) in W by ring. rewrite Rabs_Ropp in W.
    pose proof (Rle_abs (last ts 0 - hd 0 ts)). pose proof (Rle_abs (- (last ts 0 - hd 0 ts))) as W2. rewrite Rabs_Ropp in W2. lra.
  - intros E. exists i, j. split; [exact MX|]. split; [exact MN|].
    replace (hd 0 ts + c - (last ts 0 + c)) with 0 by lra. rewrite Rabs_R0. destruct (Rltb_spec (1 / 100000) 0); [lra|].
    replace (nth i ts 0 + c - (nth j ts 0 + c)) with (nth i ts 0 - nth j ts 0) by ring.
    split; intros HR; destruct (Rleb_spec (2 * PI) (nth i ts 0 - nth j ts 0)); try lra; [reflexivity|].
    rewrite !to_frame_ok by exact Ho. cbn [bind]. rewrite !to_frame_shown by exact Ho. reflexivity.
Qed.
Print Assumptions C50_tangent_points_general.
(** such a choice of angles exists for every point that is on no edge *)
Theorem C50_angles_exist : forall (v : list Pt) x, v <> [] -> (forall p q, In (p, q) (cyc_edges v) -> ~ on_seg p q x) ->
  exists ts, Forall2 (sees x) (closed_chain v) ts /\ small_steps ts.
Proof.
  intros v x NE H. destruct v as [|p0 l]; [congruence|].
  assert (SG : forall p q, on_seg p q p /\ on_seg p q q).
  { intros [p1 p2] [q1 q2]. split; [exists 0|exists 1]; (split; [lra|]); unfold along, vadd, smul, vsub; cbn [fst snd]; apply pair_eq; ring. }
  assert (N0 : p0 <> x). { intros ->. destruct l as [|b l]; [apply (H x x)|apply (H x b)]; try (left; reflexivity); apply SG. }
  destruct (angle_to_sees x p0 N0) as [S0 _].
  destruct (lift_exists (fun p q => q <> x /\ ~ on_seg p q x) (fun t s => Rabs (s - t) < PI) x) with (l := l ++ [p0]) (p := p0) (t := angle_to x p0) as (ts & F & S).
  - intros p q t Sp [A B]. destruct (step_off_edge x p q t Sp A B) as (s & ? & ?). eauto.
  - exact S0.
  - apply (chained_cyc _ (p0 :: l)). intros p q I. split; [|apply H; exact I]. intros ->. apply (H p x I). apply SG.
  - exists (angle_to x p0 :: ts). split; [constructor; assumption|]. apply (steps_small _ _ (fun t s W => W) S).
Qed.
Print Assumptions C50_angles_exist.

Lemma cos_pos_range a : - PI <= a < PI -> 0 < cos a -> - (PI / 2) < a < PI / 2.
Proof.
  intros B C. pose proof PI_RGT_0. split; apply Rnot_le_lt; intros L.
  - assert (cos a <= 0); [|lra]. rewrite <- cos_neg. apply cos_le_0; lra.
  - assert (cos a <= 0); [|lra]. apply cos_le_0; lra.
Qed.
Lemma lift_all (P : Pt -> R -> Prop) l : (forall p, In p l -> exists t, P p t) -> exists ts, Forall2 P l ts.
Proof.
  induction l as [|p l IH]; intros H; [exists []; constructor|]. destruct (H p (or_introl eq_refl)) as (t & T).
  destruct IH as (ts & F); [intros; apply H; right; assumption|]. exists (t :: ts). constructor; assumption.
Qed.
Lemma small_all lo ts : (forall t, In t ts -> lo < t < lo + PI) -> small_steps ts.
Proof.
  induction ts as [|a ts IH]; intros H; [exact I|]. destruct ts as [|b ts]; [exact I|]. split.
  - pose proof (H a ltac:(cbn; auto)). pose proof (H b ltac:(cbn; auto)). apply Rabs_def1; lra.
  - apply IH. intros; apply H; right; assumption.
Qed.
Lemma Forall2_nth {A B} (P : A -> B -> Prop) l l' da db i : Forall2 P l l' -> (i < length l)%nat -> P (nth i l da) (nth i l' db).
Proof. intros F. revert i. induction F; intros i Hi; [cbn in Hi; lia|]. destruct i; cbn; [assumption|]. apply IHF. cbn in Hi. lia. Qed.
Lemma closed_in {A} (l : list A) p : In p (closed_chain l) <-> In p l.
Proof. destruct l; [reflexivity|]. cbn [closed_chain]. rewrite in_app_iff. cbn. intuition. Qed.

(** C50: seen from a point strictly on one side of a line that has all vertices on the other side *)
Theorem C50_tangent_points : forall m (v : list Pt) x fi fo n, good fi -> good fo -> v <> [] -> (forall p, In p v -> 0 < dot n (vsub p x)) ->
  exists t1 t2, p_tangent_points m v (shown m fi x) fi fo = Ret [shown m fo t1; shown m fo t2] /\ In t1 v /\ In t2 v /\
    (forall o, in_hull v o -> area2 x t1 o <= 0 <= area2 x t2 o) /\
    (forall p q, In p v -> In q v -> area2 x p q <> 0 -> area2 x t1 t2 < 0).
Proof.
  intros m v x fi fo n Hi Ho NE SEP.
  assert (NZ : n <> (0, 0)). { intros ->. destruct v as [|p v]; [congruence|]. specialize (SEP p (or_introl eq_refl)). unfold dot in SEP. cbn in SEP. lra. }
  destruct (polar_exists n NZ) as (c & _ & EN). pose proof (norm_pos n NZ) as NP. pose proof PI_RGT_0 as PP.
  assert (LIFT : forall p, In p (closed_chain v) -> exists t, sees x p t /\ c - PI / 2 < t < c + PI / 2).
  { intros p Hp. apply (proj1 (closed_in v p)) in Hp. specialize (SEP p Hp). set (u := vsub p x) in *.
    assert (U : u <> (0, 0)) by (intros Z; rewrite Z in SEP; unfold dot in SEP; cbn in SEP; lra).
    pose proof (norm_pos u U) as UP. destruct (polar_from (c - PI) u U) as (t & B & EU). exists t.
    split; [exists (norm u); auto|]. rewrite EN, EU, dot_polar in SEP. assert (C : 0 < cos (t - c)).
    { apply Rmult_lt_reg_l with (norm n * norm u); [apply Rmult_lt_0_compat; assumption|]. rewrite Rmult_0_r. exact SEP. }
    pose proof (cos_pos_range (t - c) ltac:(lra) C). lra. }
  destruct (lift_all _ _ LIFT) as (ts & F).
  assert (FS : Forall2 (sees x) (closed_chain v) ts) by (eapply F2_impl; [|exact F]; cbn; tauto).
  assert (BD : forall t, In t ts -> c - PI / 2 < t < c + PI / 2).
  { clear - F. induction F; intros t Ht; [destruct Ht|]. destruct Ht as [<-|Ht]; [tauto|auto]. }
  assert (St : small_steps ts). { apply (small_all (c - PI / 2)). intros t Ht. specialize (BD t Ht). lra. }
  assert (L : length ts = length (closed_chain v)) by (symmetry; eapply F2_length; eauto).
  assert (L1 : (0 < length ts)%nat). { rewrite L. destruct v; [congruence|]. cbn. lia. }
  assert (SEE : forall i, (i < length ts)%nat -> sees x (nth i (closed_chain v) (0, 0)) (nth i ts 0)) by (intros i Li; apply Forall2_nth; [exact FS|rewrite <- L; exact Li]).
  destruct (C50_tangent_points_general m v x fi fo ts Hi Ho NE FS St) as [_ G].
  assert (LH : last ts 0 = hd 0 ts).
  { destruct v as [|p v]; [congruence|].
    assert (S1 : sees x p (hd 0 ts)). { pose proof (SEE 0%nat L1) as S. cbn [closed_chain app nth] in S. destruct ts; [cbn in L1; lia|exact S]. }
    assert (S2 : sees x p (last ts 0)).
    { rewrite last_nth. pose proof (SEE (length ts - 1)%nat ltac:(lia)) as S3.
      replace (nth (length ts - 1) (closed_chain (p :: v)) (0, 0)) with p in S3; [exact S3|]. rewrite L. cbn [closed_chain].
      rewrite app_nth2 by (rewrite app_length; cbn; lia). rewrite app_length. cbn [length].
      replace (S (length v) + 1 - 1 - S (length v))%nat with 0%nat by lia. reflexivity. }
    destruct (sees_mod _ _ _ _ S2 S1) as (k & K).
    assert (Y : last ts 0 - hd 0 ts = 2 * PI * IZR k) by lra. apply z_unique in Y; [lra|].
    pose proof (BD (hd 0 ts)) as B1. pose proof (BD (last ts 0)) as B2.
    assert (In (hd 0 ts) ts) by (destruct ts; [cbn in L1; lia|left; reflexivity]).
    assert (In (last ts 0) ts) by (rewrite last_nth; apply nth_In; lia). specialize (B1 H). specialize (B2 H0). lra. }
  destruct (G LH) as (i & j & MX & MN & _ & R). destruct MX as [Ii MX]. destruct MN as [Ij MN].
  pose proof (BD _ (nth_In ts 0 Ii)) as Bi. pose proof (BD _ (nth_In ts 0 Ij)) as Bj.
  set (t1 := nth i (closed_chain v) (0, 0)) in *. set (t2 := nth j (closed_chain v) (0, 0)) in *.
  assert (T1 : In t1 v) by (apply (proj1 (closed_in v _)), nth_In; rewrite <- L; assumption). assert (T2 : In t2 v) by (apply (proj1 (closed_in v _)), nth_In; rewrite <- L; assumption).
  assert (AR : forall a b, (a < length ts)%nat -> (b < length ts)%nat -> exists r, 0 < r /\
            area2 x (nth a (closed_chain v) (0, 0)) (nth b (closed_chain v) (0, 0)) = r * sin (nth b ts 0 - nth a ts 0)).
  { intros a b Ha Hb. destruct (SEE a Ha) as (r & Hr & E).
    destruct (SEE b Hb) as (r' & Hr' & E'). exists (r * r'). split; [nra|].
    unfold area2. rewrite E, E'. apply cross_polar. }
  assert (VT : forall p, In p v -> exists a, (a < length ts)%nat /\ p = nth a (closed_chain v) (0, 0)).
  { intros p Hp. apply (proj2 (closed_in v p)) in Hp. apply (In_nth _ _ (0, 0)) in Hp as (a & Ha & E). exists a. split; [rewrite L; exact Ha|auto]. }
  assert (SN : forall y, 0 <= y < PI -> 0 <= sin y) by (intros y Hy; apply sin_ge_0; lra).
  exists t1, t2. split; [apply R; lra|]. split; [exact T1|]. split; [exact T2|]. split.
  - assert (CV : forall t s, convex (fun o => s * area2 x t o <= 0)).
    { intros t s p q r P Q (w & Hw & ->). 
      replace (area2 x t (along p q w)) with ((1 - w) * area2 x t p + w * area2 x t q)
        by (destruct x, t, p, q; unfold area2, cross, along, vadd, smul, vsub; cbn [fst snd]; ring). nra. }
    intros o Ho'. split.
    + assert (1 * area2 x t1 o <= 0); [|lra]. apply (hull_in_convex _ v o (CV t1 1)); [|exact Ho'].
      intros p Hp. destruct (VT p Hp) as (a & Ha & ->). destruct (AR i a Ii Ha) as (r & Hr & E). unfold t1. rewrite E.
      destruct (MX a Ha) as [M _]. pose proof (BD _ (nth_In ts 0 Ha)). replace (nth a ts 0 - nth i ts 0) with (- (nth i ts 0 - nth a ts 0)) by ring.
      rewrite sin_neg. pose proof (SN (nth i ts 0 - nth a ts 0) ltac:(lra)). nra.
    + assert ((-1) * area2 x t2 o <= 0); [|lra]. apply (hull_in_convex _ v o (CV t2 (-1))); [|exact Ho'].
      intros p Hp. destruct (VT p Hp) as (a & Ha & ->). destruct (AR j a Ij Ha) as (r & Hr & E). unfold t2. rewrite E.
      destruct (MN a Ha) as [M _]. pose proof (BD _ (nth_In ts 0 Ha)).
      pose proof (SN (nth a ts 0 - nth j ts 0) ltac:(lra)). nra.
  - intros p q Hp Hq D. destruct (AR i j Ii Ij) as (r & Hr & E). unfold t1, t2. rewrite E.
    destruct (MX j Ij) as [M _]. replace (nth j ts 0 - nth i ts 0) with (- (nth i ts 0 - nth j ts 0)) by ring. rewrite sin_neg.
    assert (nth j ts 0 < nth i ts 0).
    { apply Rnot_le_lt. intros Z. apply D. destruct (VT p Hp) as (a & Ha & ->). destruct (VT q Hq) as (b & Hb & ->).
      destruct (AR a b Ha Hb) as (r' & _ & ->). pose proof (proj1 (MX a Ha)). pose proof (proj1 (MX b Hb)). pose proof (proj1 (MN a Ha)). pose proof (proj1 (MN b Hb)).
      replace (nth b ts 0 - nth a ts 0) with 0 by lra. rewrite sin_0. ring. }
    pose proof (sin_gt_0 (nth i ts 0 - nth j ts 0) ltac:(lra) ltac:(lra)). nra.
Qed.
Print Assumptions C50_tangent_points.
Example C50_example : let v : list Pt := [(1, 1); (2, -1); (3, 0)] in
  (forall p, In p v -> 0 < dot (1, 0) (vsub p (0, 0))) /\ area2 (0, 0) (1, 1) (2, -1) <> 0.
Proof.
  cbv zeta. split.
  - intros p [<-|[<-|[<-|[]]]]; unfold dot, vsub; cbn [fst snd]; lra.
  - unfold area2, cross, vsub. cbn [fst snd]. lra.
Qed.

(** C51 *)
Theorem C51_tangent_points_inside : forall m (v : list Pt) x fi fo, good fi -> good fo -> v <> [] ->
  (forall p q, In (p, q) (cyc_edges v) -> 0 < area2 x p q) \/ (forall p q, In (p, q) (cyc_edges v) -> area2 x p q < 0) ->
  p_tangent_points m v (shown m fi x) fi fo = Ret [].
Proof.
  intros m v x fi fo Hi Ho NE H. destruct v as [|p0 l]; [congruence|].
  assert (N0 : p0 <> x).
  { assert (W : exists q, In (p0, q) (cyc_edges (p0 :: l))) by (destruct l as [|b l]; [exists p0|exists b]; left; reflexivity).
    destruct W as (q & W). intros ->. assert (Z : area2 x x q = 0) by (destruct x, q; unfold area2, cross, vsub; cbn [fst snd]; ring).
    destruct H as [H|H]; specialize (H _ _ W); rewrite Z in H; lra. }
  destruct (angle_to_sees x p0 N0) as [S0 _]. pose proof PI_RGT_0 as PP.
  assert (G : exists ts, Forall2 (sees x) (l ++ [p0]) ts /\ small_steps (angle_to x p0 :: ts) /\ last ts 0 <> angle_to x p0).
  { destruct H as [H|H].
    - destruct (lift_exists (fun p q => 0 < area2 x p q) (fun t s => t < s < t + PI) x) with (l := l ++ [p0]) (p := p0) (t := angle_to x p0) as (ts & F & S).
      + intros p q t Sp A. destruct (step_ccw x p q t Sp A) as (s & ? & ?). eauto.
      + exact S0.
      + apply (chained_cyc _ (p0 :: l)). exact H.
      + exists ts. split; [exact F|]. split; [eapply steps_small; [|exact S]; cbn; intros t s W; apply Rabs_def1; lra|].
        pose proof (steps_up ts _ S). assert (ts <> []) by (intros ->; destruct l; inversion F). specialize (H0 H1). lra.
    - destruct (lift_exists (fun p q => area2 x p q < 0) (fun t s => t - PI < s < t) x) with (l := l ++ [p0]) (p := p0) (t := angle_to x p0) as (ts & F & S).
      + intros p q t Sp A. destruct (step_cw x p q t Sp A) as (s & ? & ?). eauto.
      + exact S0.
      + apply (chained_cyc _ (p0 :: l)). exact H.
      + exists ts. split; [exact F|]. split; [eapply steps_small; [|exact S]; cbn; intros t s W; apply Rabs_def1; lra|].
        pose proof (steps_down ts _ S). assert (ts <> []) by (intros ->; destruct l; inversion F). specialize (H0 H1). lra. }
  destruct G as (ts & F & S & D).
  apply (C50_tangent_points_general m (p0 :: l) x fi fo (angle_to x p0 :: ts) Hi Ho NE); [constructor; assumption|exact S|].
  cbn [hd]. destruct ts; [destruct l; inversion F|exact D].
Qed.
Print Assumptions C51_tangent_points_inside.
Example C51_example : forall p q, In (p, q) (cyc_edges [(1, 0); (0, 1); (-1, 0); (0, -1)]) -> 0 < area2 (0, 0) p q.
Proof. intros p q [E|[E|[E|[E|[]]]]]; injection E as <- <-; unfold area2, cross, vsub; cbn [fst snd]; lra. Qed.

(** C52: [turn v i] is twice the signed area at the i-th vertex.  A result is returned exactly when some vertex
    other than the last one is not collinear with its neighbours. *)
Theorem C52_convexity_partial : forall v : list Pt, (forall i, (i < length v)%nat -> Rabs (turn v i) <> TH) ->
  ((exists b, check_convexity v = Ret b) <-> exists i, (i + 1 < length v)%nat /\ TH <= Rabs (turn v i)) /\
  (forall b, check_convexity v = Ret b ->
    (b = true <-> (forall i, (i < length v)%nat -> - TH <= turn v i) \/ (forall i, (i < length v)%nat -> turn v i <= TH)) /\
    (convex_ccw v -> b = true) /\
    (forall b', check_convexity (rev v) = Ret b' -> b' = b)).
Proof.
  assert (ONE : forall v : list Pt, (forall i, (i < length v)%nat -> Rabs (turn v i) <> TH) ->
    ((exists b, check_convexity v = Ret b) <-> exists i, (i + 1 < length v)%nat /\ TH <= Rabs (turn v i)) /\
    (forall b, check_convexity v = Ret b -> (b = true <-> (forall i, (i < length v)%nat -> - TH <= turn v i) \/ (forall i, (i < length v)%nat -> turn v i <= TH)))).
  { intros v G. pose proof TH_pos as TP. unfold check_convexity. cbv zeta. destruct (first_true_turn v) as [N|(k & Hk & K & J)].
    - pose proof (skip_none v N (length v) (length v + 2)%nat ltac:(lia) ltac:(lia)) as SK. rewrite Nat.sub_diag in SK. rewrite SK. cbn [bind]. split.
      + split; [intros [b E]; discriminate|]. intros (i & Hi & L). specialize (N i ltac:(lia)). lra.
      + intros b E; discriminate.
    - pose proof (skip_finds v k Hk K J k (length v + 2)%nat ltac:(lia) ltac:(lia)) as SK. rewrite Nat.sub_diag in SK. rewrite SK. cbn [bind]. clear SK.
      destruct (Nat.leb_spec (length v) (k + 1)) as [L|L].
      + split; [|intros; discriminate]. split; [intros [b E]; discriminate|]. intros (i & Hi & LI). specialize (J i ltac:(lia)). lra.
      + split; [split; [intros _; exists k; split; [lia|exact K]|intros _; destruct is_cw; eauto]|].
        assert (CE : is_cw (nth (pred_idx k (length v)) v (0, 0)) (nth k v (0, 0)) (nth (k + 1) v (0, 0)) = at_corner is_cw v k).
        { unfold at_corner, corner. cbv zeta. rewrite (Nat.mod_small (k + 1)) by lia. reflexivity. }
        rewrite CE. clear CE. specialize (G k Hk) as Gk.
        destruct (at_corner is_cw v k) eqn:C; intros b E; injection E as <-.
        * apply at_cw in C; [|exact Hk]. rewrite (existsb_corner is_ccw v (fun i => TH < turn v i)) by (intros; apply at_ccw; assumption).
          split; [intros H; right; intros i Hi; specialize (H i Hi); lra|].
          intros [H|H] i Hi; [specialize (H k Hk)|specialize (H i Hi)]; lra.
        * assert (C' : TH < turn v k).
          { assert (~ turn v k < - TH) by (intros Z; apply at_cw in Z; [congruence|exact Hk]).
            destruct (Rle_or_lt 0 (turn v k)); [rewrite Rabs_right in K, Gk by lra|rewrite Rabs_left in K, Gk by lra]; lra. }
          rewrite (existsb_corner is_cw v (fun i => turn v i < - TH)) by (intros; apply at_cw; assumption).
          split; [intros H; left; intros i Hi; specialize (H i Hi); lra|].
          intros [H|H] i Hi; [specialize (H i Hi)|specialize (H k Hk)]; lra. }
  intros v G. destruct (ONE v G) as [A B]. split; [exact A|]. intros b Eb. specialize (B b Eb). split; [exact B|]. split.
  - intros C. apply B. left. intros i Hi. pose proof (convex_ccw_turn v i C Hi). pose proof TH_pos. lra.
  - intros b' E'. assert (G' : forall i, (i < length (rev v))%nat -> Rabs (turn (rev v) i) <> TH).
    { intros i Hi. rewrite rev_length in Hi. rewrite turn_rev, Rabs_Ropp by exact Hi. apply G. lia. }
    destruct (ONE (rev v) G') as [_ B']. specialize (B' b' E'). rewrite rev_length in B'.
    assert (Q : b' = true <-> b = true).
    { rewrite B, B'. split; (intros [H|H]; [right|left]); intros i Hi; specialize (H (length v - 1 - i)%nat ltac:(lia)).
      1,2: rewrite turn_rev in H by lia; replace (length v - 1 - (length v - 1 - i))%nat with i in H by lia; lra.
      1,2: rewrite turn_rev by exact Hi; lra. }
    destruct b, b'; intuition.
Qed.
Print Assumptions C52_convexity_partial.
Example C52_example : let v : list Pt := [(0, 0); (1, 0); (1, 1); (0, 1)] in
  check_convexity v = Ret true /\ check_convexity (rev v) = Ret true /\ check_convexity [(0, 0); (4, 0); (4, 4); (2, 1)] = Ret false.
Proof.
  cbv zeta. pose proof TH_pos as TP. unfold TH in TP.
  repeat split; cbn [rev app]; unfold check_convexity, at_corner, corner; cbn [length skip_collinear Nat.add]; unfold at_corner, corner; cbn [length Nat.leb pred_idx Nat.sub nth Nat.add Nat.modulo Nat.divmod fst snd Nat.ltb rev app seq existsb bind];
  repeat match goal with
  | |- context [is_collinear ?a ?b ?c] => let E := fresh in assert (E : is_collinear a b c = false) by (destruct (is_collinear a b c) eqn:Q; [exfalso; apply is_collinear_iff in Q; revert Q; unfold area2, cross, vsub, TH; cbn [fst snd]; intros [? ?]; lra|reflexivity]); rewrite E; clear E; cbn [bind Nat.leb Nat.add pred_idx nth Nat.sub]
  | |- context [is_cw ?a ?b ?c] => let E := fresh in first
     [assert (E : is_cw a b c = true) by (apply is_cw_iff; unfold area2, cross, vsub, TH; cbn [fst snd]; lra)
     |assert (E : is_cw a b c = false) by (destruct (is_cw a b c) eqn:Q; [exfalso; apply is_cw_iff in Q; revert Q; unfold area2, cross, vsub, TH; cbn [fst snd]; lra|reflexivity])]; rewrite E; clear E; cbn [orb negb]
  | |- context [is_ccw ?a ?b ?c] => let E := fresh in first
     [assert (E : is_ccw a b c = true) by (apply is_ccw_iff; unfold area2, cross, vsub, TH; cbn [fst snd]; lra)
     |assert (E : is_ccw a b c = false) by (destruct (is_ccw a b c) eqn:Q; [exfalso; apply is_ccw_iff in Q; revert Q; unfold area2, cross, vsub, TH; cbn [fst snd]; lra|reflexivity])]; rewrite E; clear E; cbn [orb negb]
  end; reflexivity.
Qed.
(** every degenerate polygon raises IndexError where a RuntimeError is announced *)
Theorem C52_all_collinear_refuted : forall v : list Pt, (forall i, (i < length v)%nat -> Rabs (turn v i) < TH) -> check_convexity v = Exn IndexErr.
Proof.
  intros v N. unfold check_convexity. pose proof (skip_none v N (length v) (length v + 2)%nat ltac:(lia) ltac:(lia)) as SK. rewrite Nat.sub_diag in SK. rewrite SK. reflexivity.
Qed.
Print Assumptions C52_all_collinear_refuted.
(** a triangle with two repeated vertices raises IndexError as well: only its last vertex turns *)
Theorem C52_last_vertex_refuted : exists v : list Pt, turn v 4 = 1 /\ check_convexity v = Exn IndexErr.
Proof.
  exists [(0, 0); (0, 0); (1, 0); (1, 0); (0, 1)]. set (v := [(0, 0); (0, 0); (1, 0); (1, 0); (0, 1)] : list Pt).
  assert (T4 : turn v 4 = 1) by (unfold turn, area2, cross, vsub; cbn; ring). split; [exact T4|].
  unfold check_convexity. pose proof TH_pos as TP. assert (T1 : TH < 1) by (unfold TH; lra).
  assert (SK : skip_collinear (length v + 2) (4 - 4) v = Ret 4%nat); [|rewrite Nat.sub_diag in SK; rewrite SK; reflexivity].
  apply skip_finds; [cbn; lia| | |lia|cbn; lia].
  - rewrite T4, Rabs_R1. lra.
  - intros j Hj. assert (Z : turn v j = 0) by (do 4 (destruct j as [|j]; [unfold turn, area2, cross, vsub; cbn; ring|]); lia). rewrite Z, Rabs_R0. exact TP.
Qed.
Print Assumptions C52_last_vertex_refuted.

(** C53.  [contains] and [on_exterior] are shapely's answers; [inside] and [ring] the sets they decide *)
Lemma lmin_le l x : In x l -> lmin l <= x.
Proof.
  destruct l as [|a l]; [intros []|]. cbn [lmin]. revert a x. induction l as [|b l IH]; intros a x H; cbn [fold_left].
  - destruct H as [->|[]]. lra.
  - destruct H as [->|[->|H]].
    + eapply Rle_trans; [apply IH; left; reflexivity|]. apply Rmin_l.
    + eapply Rle_trans; [apply IH; left; reflexivity|]. apply Rmin_r.
    + apply IH. right. exact H.
Qed.
Lemma lmax_ge l x : In x l -> x <= lmax l.
Proof.
  destruct l as [|a l]; [intros []|]. cbn [lmax]. revert a x. induction l as [|b l IH]; intros a x H; cbn [fold_left].
  - destruct H as [->|[]]. lra.
  - destruct H as [->|[->|H]].
    + eapply Rle_trans; [|apply IH; left; reflexivity]. apply Rmax_l.
    + eapply Rle_trans; [|apply IH; left; reflexivity]. apply Rmax_r.
    + apply IH. right. exact H.
Qed.
Lemma lmin_in l : l <> [] -> In (lmin l) l.
Proof.
  destruct l as [|a l]; [congruence|]. intros _. cbn [lmin]. revert a. induction l as [|b l IH]; intros a; cbn [fold_left]; [left; reflexivity|].
  destruct (IH (Rmin a b)) as [E|E]; [|right; right; exact E]. rewrite <- E. unfold Rmin. destruct Rle_dec; cbn; auto.
Qed.
Lemma lmax_in l : l <> [] -> In (lmax l) l.
Proof.
  destruct l as [|a l]; [congruence|]. intros _. cbn [lmax]. revert a. induction l as [|b l IH]; intros a; cbn [fold_left]; [left; reflexivity|].
  destruct (IH (Rmax a b)) as [E|E]; [|right; right; exact E]. rewrite <- E. unfold Rmax. destruct Rle_dec; cbn; auto.
Qed.
(** strictly between the extreme coordinates of the vertices *)
Definition strictly_in_box (v : list Pt) (x : Pt) : Prop :=
  (exists p, In p v /\ fst p < fst x) /\ (exists p, In p v /\ fst x < fst p) /\ (exists p, In p v /\ snd p < snd x) /\ (exists p, In p v /\ snd x < snd p).
Theorem C53_point_location_partial : forall contains on_exterior (inside ring : region) m (v : list Pt) x fi, good fi -> v <> [] ->
  (forall y, contains y = true <-> inside y) -> (forall y, on_exterior y = true <-> ring y) ->
  (forall y, inside y -> strictly_in_box v y) -> (forall y, ring y -> ~ inside y) ->
  exists loc, p_point_location contains on_exterior m v (shown m fi x) fi = Ret loc /\
    (loc = -1 <-> inside x) /\ (loc = 0 <-> ring x /\ strictly_in_box v x) /\ (loc = 1 <-> ~ inside x /\ ~ (ring x /\ strictly_in_box v x)).
Proof.
  intros ct oe inside ring m v x fi Hi NE HC HE HB HD. unfold p_point_location. rewrite from_shown by exact Hi. cbn [bind]. cbv zeta.
  assert (BX : ((Rltb (lmin (map fst v)) (fst x) && Rltb (fst x) (lmax (map fst v))) && (Rltb (lmin (map snd v)) (snd x) && Rltb (snd x) (lmax (map snd v)))) = true <-> strictly_in_box v x).
  { assert (N : forall f : Pt -> R, map f v <> []) by (intros f Z; apply NE; destruct v; [reflexivity|discriminate]).
    assert (L : forall (f : Pt -> R) y, lmin (map f v) < y <-> exists p, In p v /\ f p < y).
    { intros f y. split.
      - intros H. pose proof (lmin_in _ (N f)) as I. apply in_map_iff in I as (p & E & I). exists p. rewrite E. auto.
      - intros (p & I & H). eapply Rle_lt_trans; [apply lmin_le; apply in_map; exact I|exact H]. }
    assert (U : forall (f : Pt -> R) y, y < lmax (map f v) <-> exists p, In p v /\ y < f p).
    { intros f y. split.
      - intros H. pose proof (lmax_in _ (N f)) as I. apply in_map_iff in I as (p & E & I). exists p. rewrite E. auto.
      - intros (p & I & H). eapply Rlt_le_trans; [exact H|apply lmax_ge; apply in_map; exact I]. }
    unfold strictly_in_box. rewrite !andb_true_iff, !Rltb_true. rewrite (L fst), (U fst), (L snd), (U snd). tauto. }
  destruct (_ && _)%bool eqn:Q in |- *; cbn [negb].
  - apply BX in Q. destruct (ct x) eqn:C.
    + exists (-1). apply HC in C. split; [reflexivity|]. split; [tauto|]. split; split; intros H; try lra; [destruct H as [H _]; destruct (HD x H C)|destruct H as [H _]; contradiction].
    + assert (C' : ~ inside x) by (intros H; apply HC in H; congruence). destruct (oe x) eqn:O.
      * exists 0. apply HE in O. split; [reflexivity|]. split; [split; intros H; [lra|contradiction]|]. split; [tauto|]. split; intros H; [lra|tauto].
      * assert (O' : ~ ring x) by (intros H; apply HE in H; congruence). exists 1. split; [reflexivity|].
        split; [split; intros H; [lra|contradiction]|]. split; [split; intros H; [lra|tauto]|]. tauto.
  - assert (Q' : ~ strictly_in_box v x) by (intros H; apply BX in H; congruence).
    exists 1. split; [reflexivity|]. split; [split; intros H; [lra|apply HB in H; contradiction]|]. split; [split; intros H; [lra|tauto]|].
    split; [|reflexivity]. intros _. split; [intros H; apply HB in H; contradiction|tauto].
Qed.
Print Assumptions C53_point_location_partial.
Example C53_example : strictly_in_box [(0, 0); (1, 0); (1, 1); (0, 1)] (1 / 2, 1 / 3).
Proof. repeat split; [exists (0, 0)|exists (1, 0)|exists (0, 0)|exists (1, 1)]; cbn; split; auto; lra. Qed.
(** every polygon has vertices that are reported as exterior points, whatever shapely answers *)
Theorem C53_boundary_refuted : forall contains on_exterior m (v : list Pt) fi, good fi -> v <> [] ->
  exists p, In p v /\ p_point_location contains on_exterior m v (shown m fi p) fi = Ret 1.
Proof.
  intros ct oe m v fi Hi NE. assert (N : map fst v <> []) by (intros Z; apply NE; destruct v; [reflexivity|discriminate]).
  pose proof (lmin_in _ N) as I. apply in_map_iff in I as (p & E & I). exists p. split; [exact I|].
  unfold p_point_location. rewrite from_shown by exact Hi. cbn [bind]. cbv zeta. 
  assert (Rltb (lmin (map fst v)) (fst p) = false) as W by (destruct (Rltb_spec (lmin (map fst v)) (fst p)) as [C|]; [change (fst p) with ((fst : Pt -> R) p) in C; rewrite E in C; lra|reflexivity]).
  match goal with |- (if negb ((?a && _) && _) then _ else _) = _ => replace a with false by (symmetry; exact W) end. reflexivity.
Qed.
Print Assumptions C53_boundary_refuted.
