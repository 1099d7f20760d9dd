(** Properties C123, C124: Line.line_intersection and Ray.ray_intersection of utils/cg.py in binary64 arithmetic. *)
From Coq Require Import ZArith QArith Qreals Reals SpecFloat Bool Lia Lra List.
From Verif Require Import Num Spec L_Geom M_Cg L_Cg M_Float S_Float L_Float L_FloatCmp L_FloatDiv L_FloatCg L_FloatGrid L_FloatLine L_FloatSeg L_FloatRay W_PolTriangles P_Float P_FloatSeg.
Import ListNotations.
Local Open Scope R_scope.
Local Notation u := (p2 (-53)).

Section Lines.
  Variables (M : R) (s o : line b64).
  Hypothesis M1 : 1 <= M. Hypothesis M2 : M <= 160. Hypothesis Fs : seg_fin s. Hypothesis Fo : seg_fin o. Hypothesis Ws : seg_within M s. Hypothesis Wo : seg_within M o.
  Notation S1 := (bpt (e1 s)). Notation S2 := (bpt (e2 s)). Notation O1 := (bpt (e1 o)). Notation O2 := (bpt (e2 o)).
  Notation denB := (crsB (e2 s) (e1 s) (e2 o) (e1 o)).
  Lemma den_err : bfin denB /\ Rabs (bval denB - sden s o) <= 33 * (M * M) * u /\ Rabs (sden s o) <= 8 * (M * M).
  Proof. apply crs_err; auto; try apply Fs; try apply Fo; try apply Ws; try apply Wo. apply Mb400; auto. Qed.
  Lemma not_parallel : SFltb (SFabs denB) (@COLLINEAR_THRESHOLD b64 NumB) = Rltb (Rabs (bval denB)) (bval (@COLLINEAR_THRESHOLD b64 NumB)).
  Proof. destruct den_err as (F & _). destruct (abs_spec _ F) as (Fa & Va). rewrite (ltb_spec _ _ Fa th_fin), Va. reflexivity. Qed.
  Lemma den_far : 2 * TH <= Rabs (sden s o) -> SFltb (SFabs denB) (@COLLINEAR_THRESHOLD b64 NumB) = false.
  Proof.
    intros HD. rewrite not_parallel. destruct den_err as (_ & E & _). pose proof th_near as TN. pose proof (MM3 M M1 M2) as (_ & M3). pose proof TH_pos.
    pose proof (Rabs_triang_inv (sden s o) (sden s o - bval denB)) as HT. replace (sden s o - (sden s o - bval denB)) with (bval denB) in HT by ring. rewrite (Rabs_minus_sym (sden s o)) in HT.
    unfold Rltb. destruct (Rlt_dec _ _) as [L|_]; [lra|reflexivity].
  Qed.
  Lemma den_near : SFltb (SFabs denB) (@COLLINEAR_THRESHOLD b64 NumB) = false -> 0 < Rabs (sden s o).
  Proof.
    rewrite not_parallel. unfold Rltb. destruct (Rlt_dec _ _) as [L|L]; [discriminate|]. intros _. destruct den_err as (_ & E & _). pose proof th_near as TN. pose proof (MM3 M M1 M2) as (_ & M3). pose proof TH_pos.
    pose proof (Rabs_triang_inv (bval denB) (bval denB - sden s o)) as HT. replace (bval denB - (bval denB - sden s o)) with (sden s o) in HT by ring. lra.
  Qed.
End Lines.

(** the generic definition, with the products named *)
Lemma li_B (s o : line b64) : line_intersection s o =
  let den := crsB (e2 s) (e1 s) (e2 o) (e1 o) in
  if SFltb (SFabs den) (@COLLINEAR_THRESHOLD b64 NumB) then None else
  let tmp p := SFsub 53 1024 (SFmul 53 1024 (fst (e1 p)) (snd (e2 p))) (SFmul 53 1024 (snd (e1 p)) (fst (e2 p))) in
  let num dx ox := SFsub 53 1024 (SFmul 53 1024 (tmp s) ox) (SFmul 53 1024 dx (tmp o)) in
  Some (SFdiv 53 1024 (num (SFsub 53 1024 (fst (e1 s)) (fst (e2 s))) (SFsub 53 1024 (fst (e1 o)) (fst (e2 o)))) den,
        SFdiv 53 1024 (num (SFsub 53 1024 (snd (e1 s)) (snd (e2 s))) (SFsub 53 1024 (snd (e1 o)) (snd (e2 o)))) den).
Proof. reflexivity. Qed.
Lemma bound3 M a b c d : 1 <= M -> Rabs a <= 2 * (M * M) -> Rabs b <= 2 * M -> Rabs c <= 2 * M -> Rabs d <= 2 * (M * M) -> Rabs (a * b - c * d) <= 8 * (M * M * M).
Proof. intros M1 A B C D. pose proof (abs_dif _ _ _ _ (abs_mul _ _ _ _ A B) (abs_mul _ _ _ _ C D)). lra. Qed.

(** C123: parallel lines have no crossing; otherwise the error is at most e times the larger of M and the coordinate *)
Theorem C123_lines : forall M s o, 1 <= M <= 160 -> seg_fin s -> seg_fin o -> seg_within M s -> seg_within M o ->
  let D := Rabs (cross (vsub (bpt (e1 s)) (bpt (e2 s))) (vsub (bpt (e1 o)) (bpt (e2 o)))) in let e := 180 * M ^ 2 / (2 ^ 53 * D) in
  (D = 0 -> line_intersection s o = None) /\
  (2 * TH <= D -> forall t v p, p = along (bpt (e1 s)) (bpt (e2 s)) t -> p = along (bpt (e1 o)) (bpt (e2 o)) v ->
     exists x, line_intersection s o = Some x /\ bfin_pt x /\ Rabs (bval (fst x) - fst p) <= e * Rmax M (Rabs (fst p)) /\ Rabs (bval (snd x) - snd p) <= e * Rmax M (Rabs (snd p))).
Proof.
  intros M s o (M1 & M2) Fs Fo Ws Wo D e. rewrite li_B. cbv zeta. split.
  - intros HD. destruct (SFltb _ _) eqn:E; [reflexivity|]. pose proof (den_near M s o M1 M2 Fs Fo Ws Wo E) as X. change (Rabs (sden s o)) with D in X. lra.
  - intros HD t v p E1 E2. rewrite (den_far M s o M1 M2 Fs Fo Ws Wo HD). eexists. split; [reflexivity|].
    destruct (den_err M s o M1 M2 Fs Fo Ws Wo) as (Gd & Ed & Bd). pose proof (Mb400 M M2) as Mb. change (Rabs (sden s o)) with D in Bd.
    assert (D0 : D <> 0) by (pose proof TH_pos; lra). set (w := M * M * u / D). assert (EW : w * D = M * M * u) by (unfold w; field; auto). assert (EE : e = 180 * w) by (unfold e, w; change u with (/ 2 ^ 53); field; auto).
    destruct Fs as ((F1 & F2) & F3 & F4), Fo as ((F5 & F6) & F7 & F8), Ws as ((W1 & W2) & W3 & W4), Wo as ((W5 & W6) & W7 & W8).
    destruct (tmp_err M M1 M2 _ _ _ _ F1 F4 F2 F3 W1 W4 W2 W3) as (G1 & T1 & B1 & C1). destruct (tmp_err M M1 M2 _ _ _ _ F5 F8 F6 F7 W5 W8 W6 W7) as (G2 & T2 & B2 & C2).
    destruct (dif_err M M1 Mb _ _ F1 F3 W1 W3) as (H1 & X1 & Y1 & Z1). destruct (dif_err M M1 Mb _ _ F2 F4 W2 W4) as (H2 & X2 & Y2 & Z2).
    destruct (dif_err M M1 Mb _ _ F5 F7 W5 W7) as (H3 & X3 & Y3 & Z3). destruct (dif_err M M1 Mb _ _ F6 F8 W6 W8) as (H4 & X4 & Y4 & Z4).
    set (t1 := SFsub 53 1024 (SFmul 53 1024 (fst (e1 s)) (snd (e2 s))) _) in *. set (t2 := SFsub 53 1024 (SFmul 53 1024 (fst (e1 o)) (snd (e2 o))) _) in *.
    destruct (num_err M M1 M2 _ _ _ _ _ _ _ _ G1 G2 H3 H1 T1 B1 C1 T2 B2 C2 X3 Y3 Z3 X1 Y1 Z1) as (Fx & Nx). destruct (num_err M M1 M2 _ _ _ _ _ _ _ _ G1 G2 H4 H2 T1 B1 C1 T2 B2 C2 X4 Y4 Z4 X2 Y2 Z2) as (Fy & Ny).
    pose proof (bound3 M _ _ _ _ M1 B1 Z3 Z1 B2) as Qx. pose proof (bound3 M _ _ _ _ M1 B1 Z4 Z2 B2) as Qy.
    assert (A : fst p = bval (fst (e1 s)) + t * (bval (fst (e2 s)) - bval (fst (e1 s))) /\ snd p = bval (snd (e1 s)) + t * (bval (snd (e2 s)) - bval (snd (e1 s)))) by (rewrite E1; split; reflexivity).
    assert (B : fst p = bval (fst (e1 o)) + v * (bval (fst (e2 o)) - bval (fst (e1 o))) /\ snd p = bval (snd (e1 o)) + v * (bval (snd (e2 o)) - bval (snd (e1 o)))) by (rewrite E2; split; reflexivity).
    destruct A as (A1 & A2), B as (B3 & B4).
    assert (I1 : fst p * (bval (snd (e1 s)) - bval (snd (e2 s))) - snd p * (bval (fst (e1 s)) - bval (fst (e2 s))) = - (bval (fst (e1 s)) * bval (snd (e2 s)) - bval (snd (e1 s)) * bval (fst (e2 s)))) by (rewrite A1, A2; ring).
    assert (I2 : fst p * (bval (snd (e1 o)) - bval (snd (e2 o))) - snd p * (bval (fst (e1 o)) - bval (fst (e2 o))) = - (bval (fst (e1 o)) * bval (snd (e2 o)) - bval (snd (e1 o)) * bval (fst (e2 o)))) by (rewrite B3, B4; ring).
    assert (Px : fst p * sden s o = (bval (fst (e1 s)) * bval (snd (e2 s)) - bval (snd (e1 s)) * bval (fst (e2 s))) * (bval (fst (e1 o)) - bval (fst (e2 o))) - (bval (fst (e1 s)) - bval (fst (e2 s))) * (bval (fst (e1 o)) * bval (snd (e2 o)) - bval (snd (e1 o)) * bval (fst (e2 o)))).
    { match type of I1 with _ = - ?a => replace a with (snd p * (bval (fst (e1 s)) - bval (fst (e2 s))) - fst p * (bval (snd (e1 s)) - bval (snd (e2 s)))) by lra end.
      match type of I2 with _ = - ?a => replace a with (snd p * (bval (fst (e1 o)) - bval (fst (e2 o))) - fst p * (bval (snd (e1 o)) - bval (snd (e2 o)))) by lra end. unfold sden, cross, vsub, bpt. cbn [fst snd]. ring. }
    assert (Py : snd p * sden s o = (bval (fst (e1 s)) * bval (snd (e2 s)) - bval (snd (e1 s)) * bval (fst (e2 s))) * (bval (snd (e1 o)) - bval (snd (e2 o))) - (bval (snd (e1 s)) - bval (snd (e2 s))) * (bval (fst (e1 o)) * bval (snd (e2 o)) - bval (snd (e1 o)) * bval (fst (e2 o)))).
    { match type of I1 with _ = - ?a => replace a with (snd p * (bval (fst (e1 s)) - bval (fst (e2 s))) - fst p * (bval (snd (e1 s)) - bval (snd (e2 s)))) by lra end.
      match type of I2 with _ = - ?a => replace a with (snd p * (bval (fst (e1 o)) - bval (fst (e2 o))) - fst p * (bval (snd (e1 o)) - bval (snd (e2 o)))) by lra end. unfold sden, cross, vsub, bpt. cbn [fst snd]. ring. }
    destruct (line_quot M D w M1 M2 HD Bd EW _ _ _ _ (fst p) (Rmax M (Rabs (fst p))) Fx Gd Nx Ed eq_refl Px (Rmax_l _ _) (Rmax_r _ _) Qx) as (Gx & Lx).
    destruct (line_quot M D w M1 M2 HD Bd EW _ _ _ _ (snd p) (Rmax M (Rabs (snd p))) Fy Gd Ny Ed eq_refl Py (Rmax_l _ _) (Rmax_r _ _) Qy) as (Gy & Ly).
    split; [split; assumption|]. cbn [fst snd]. rewrite EE, !Rmult_assoc, !(Rmult_comm w). split; assumption.
Qed.
Print Assumptions C123_lines.
(** the diagonal and a line that meets it far away *)
Example C123_example : let s := Line (f01, f01) (f09, f09) in let o := Line (f02, f01) (f09, f07) in
  seg_fin s /\ seg_fin o /\ seg_within 1 s /\ seg_within 1 o /\ 2 * TH <= Rabs (cross (vsub (bpt (e1 s)) (bpt (e2 s))) (vsub (bpt (e1 o)) (bpt (e2 o)))) /\
  line_intersection s s = None /\ line_intersection s o = Some (@nlit b64 NumB (-1 # 2), @nlit b64 NumB (-1 # 2)).
Proof.
  intros s o. assert (Q1 : Q2R 1 = 1) by (unfold Q2R; cbn; lra). rewrite <- Q1 at 1 2. unfold seg_fin, seg_within.
  do 2 (split; [split; apply fin_ptb_R; reflexivity|]). do 2 (split; [split; apply withinb_R; vm_compute; reflexivity|]). split; [|split; vm_compute; reflexivity]. cbn [s o M_Cg.p1 M_Cg.p2].
  assert (E : cross (vsub (bpt (f01, f01)) (bpt (f09, f09))) (vsub (bpt (f02, f01)) (bpt (f09, f07))) = Q2R ((b64q f01 - b64q f09) * (b64q f01 - b64q f07) - (b64q f01 - b64q f09) * (b64q f02 - b64q f09))).
  { unfold cross, vsub, bpt. cbn [fst snd]. rewrite !b64q_R, Q2R_minus, !Q2R_mult, !Q2R_minus. ring. }
  rewrite E. assert (E2 : 2 * TH = Q2R (2 # 10000000000)) by (unfold TH, Q2R; cbn; lra). rewrite E2, <- Rabs_Ropp. apply Rle_trans with (2 := Rle_abs _). rewrite <- Q2R_opp. apply Qle_Rle, Qle_bool_iff. vm_compute. reflexivity.
Qed.

(** *** Rays *)
Lemma ri_B (s o : line b64) : ray_intersection s o =
  let den := crsB (e2 s) (e1 s) (e2 o) (e1 o) in
  if SFltb (SFabs den) (@COLLINEAR_THRESHOLD b64 NumB) then None else
  let t := SFdiv 53 1024 (crsB (e1 o) (e1 s) (e2 o) (e1 o)) den in let v := SFdiv 53 1024 (crsB (e1 o) (e1 s) (e2 s) (e1 s)) den in
  if SFltb t (@n0 b64 NumB) || SFltb v (@n0 b64 NumB) then None
  else Some (SFsub 53 1024 (fst (e1 s)) (SFmul 53 1024 t (SFsub 53 1024 (fst (e1 s)) (fst (e2 s)))), SFsub 53 1024 (snd (e1 s)) (SFmul 53 1024 t (SFsub 53 1024 (snd (e1 s)) (snd (e2 s))))).
Proof. reflexivity. Qed.
Lemma behind_spec t v : bfin t -> bfin v -> SFltb t (@n0 b64 NumB) || SFltb v (@n0 b64 NumB) = false <-> 0 <= bval t /\ 0 <= bval v.
Proof.
  intros Ft Fv. change (@n0 b64 NumB) with (S754_zero false). rewrite !ltb_spec by (auto; exact I). cbn [bval]. unfold Rltb. split.
  - intros H. apply orb_false_elim in H as (H1 & H2). destruct (Rlt_dec (bval t) 0), (Rlt_dec (bval v) 0); try discriminate. lra.
  - intros (H1 & H2). destruct (Rlt_dec (bval t) 0), (Rlt_dec (bval v) 0); try reflexivity; lra.
Qed.
(** rays that are not nearly parallel: t and v are the parameters of the crossing of their lines; a crossing ahead of both starts is found, what is found is near the crossing and
    not far behind the starts *)
Theorem C124_rays_partial : forall M s o, 1 <= M <= 160 -> seg_fin s -> seg_fin o -> seg_within M s -> seg_within M o ->
  let D := Rabs (cross (vsub (bpt (e1 s)) (bpt (e2 s))) (vsub (bpt (e1 o)) (bpt (e2 o)))) in let e := 34 * M ^ 2 / (2 ^ 53 * D) in
  (D = 0 -> ray_intersection s o = None) /\
  (2 * TH <= D -> forall t v p, p = along (bpt (e1 s)) (bpt (e2 s)) t -> p = along (bpt (e1 o)) (bpt (e2 o)) v ->
    (e <= t -> e <= v -> ray_intersection s o <> None) /\
    (forall x, ray_intersection s o = Some x -> - e <= t /\ - e <= v /\ bfin_pt x /\ Rabs (bval (fst x) - fst p) <= 18 * M * e * Rmax 1 t /\ Rabs (bval (snd x) - snd p) <= 18 * M * e * Rmax 1 t)).
Proof.
  intros M s o (M1 & M2) Fs Fo Ws Wo D e. rewrite ri_B. cbv zeta. split.
  - intros HD. destruct (SFltb _ _) eqn:E; [reflexivity|]. pose proof (den_near M s o M1 M2 Fs Fo Ws Wo E) as X. change (Rabs (sden s o)) with D in X. lra.
  - intros HD t v p E1 E2. rewrite (den_far M s o M1 M2 Fs Fo Ws Wo HD).
    destruct (den_err M s o M1 M2 Fs Fo Ws Wo) as (Gd & Ed & Bd). pose proof (Mb400 M M2) as Mb. change (Rabs (sden s o)) with D in Bd.
    assert (D0 : D <> 0) by (pose proof TH_pos; lra). set (w := M * M * u / D). assert (EW : w * D = M * M * u) by (unfold w; field; auto). assert (EE : e = 34 * w) by (unfold e, w; change u with (/ 2 ^ 53); field; auto).
    destruct Fs as (F1 & F2), Fo as (F3 & F4), Ws as (W1 & W2), Wo as (W3 & W4).
    destruct (crs_err M (e1 o) (e1 s) (e2 o) (e1 o)) as (Gt & Et & Bt); auto. destruct (crs_err M (e1 o) (e1 s) (e2 s) (e1 s)) as (Gv & Ev & Bv); auto.
    assert (X : fst p = fst (bpt (e1 s)) + t * (fst (bpt (e2 s)) - fst (bpt (e1 s))) /\ snd p = snd (bpt (e1 s)) + t * (snd (bpt (e2 s)) - snd (bpt (e1 s)))) by (rewrite E1; split; reflexivity).
    assert (Y : fst p = fst (bpt (e1 o)) + v * (fst (bpt (e2 o)) - fst (bpt (e1 o))) /\ snd p = snd (bpt (e1 o)) + v * (snd (bpt (e2 o)) - snd (bpt (e1 o)))) by (rewrite E2; split; reflexivity).
    destruct X as (X1 & X2), Y as (Y1 & Y2).
    assert (Kt : t * sden s o = cross (vsub (bpt (e1 s)) (bpt (e1 o))) (vsub (bpt (e1 o)) (bpt (e2 o)))).
    { unfold sden, cross, vsub. cbn [fst snd]. replace (fst (bpt (e1 s)) - fst (bpt (e1 o))) with (v * (fst (bpt (e2 o)) - fst (bpt (e1 o))) - t * (fst (bpt (e2 s)) - fst (bpt (e1 s)))) by lra.
      replace (snd (bpt (e1 s)) - snd (bpt (e1 o))) with (v * (snd (bpt (e2 o)) - snd (bpt (e1 o))) - t * (snd (bpt (e2 s)) - snd (bpt (e1 s)))) by lra. ring. }
    assert (Kv : v * sden s o = cross (vsub (bpt (e1 s)) (bpt (e1 o))) (vsub (bpt (e1 s)) (bpt (e2 s)))).
    { unfold sden, cross, vsub. cbn [fst snd]. replace (fst (bpt (e1 s)) - fst (bpt (e1 o))) with (v * (fst (bpt (e2 o)) - fst (bpt (e1 o))) - t * (fst (bpt (e2 s)) - fst (bpt (e1 s)))) by lra.
      replace (snd (bpt (e1 s)) - snd (bpt (e1 o))) with (v * (snd (bpt (e2 o)) - snd (bpt (e1 o))) - t * (snd (bpt (e2 s)) - snd (bpt (e1 s)))) by lra. ring. }
    set (td := SFdiv 53 1024 (crsB (e1 o) (e1 s) (e2 o) (e1 o)) (crsB (e2 s) (e1 s) (e2 o) (e1 o))). set (vd := SFdiv 53 1024 (crsB (e1 o) (e1 s) (e2 s) (e1 s)) (crsB (e2 s) (e1 s) (e2 o) (e1 o))).
    assert (Qt := fun T => ray_quot M D w M1 M2 HD Bd EW _ _ _ _ t Gt Gd Et Bt Ed eq_refl Kt T). assert (Qv := fun T => ray_quot M D w M1 M2 HD Bd EW _ _ _ _ v Gv Gd Ev Bv Ed eq_refl Kv T). fold td in Qt. fold vd in Qv.
    destruct (ray_sign M D w M1 M2 HD Bd EW _ _ _ _ t Gt Gd Et Bt Ed eq_refl Kt) as (St & St'). destruct (ray_sign M D w M1 M2 HD Bd EW _ _ _ _ v Gv Gd Ev Bv Ed eq_refl Kv) as (Sv & Sv'). fold td in St, St'. fold vd in Sv, Sv'.
    destruct (Qt (Rmax 1 (Rabs t)) (Rmax_l _ _) (Rmax_r _ _)) as (Ft & Nt). destruct (Qv (Rmax 1 (Rabs v)) (Rmax_l _ _) (Rmax_r _ _)) as (Fv & _). rewrite EE. split.
    + intros Ht Hv. assert (O : SFltb td (@n0 b64 NumB) || SFltb vd (@n0 b64 NumB) = false) by (apply behind_spec; auto). rewrite O. discriminate.
    + intros x Hx. destruct (SFltb td (@n0 b64 NumB) || SFltb vd (@n0 b64 NumB)) eqn:O; [discriminate|]. apply behind_spec in O as (O1 & O2); auto. injection Hx as <-. split; [auto|]. split; [auto|].
      destruct (ray_consts M D w M1 M2 HD Bd EW _ _ _ _ t Et Bt Ed eq_refl Kt) as (_ & _ & _ & _ & Bt'). destruct (W_bounds M D w M1 M2 HD Bd EW) as (_ & (W0 & W5) & _).
      assert (ET : Rmax 1 (Rabs t) = Rmax 1 t). { specialize (St' O1). unfold Rmax, Rabs. destruct (Rcase_abs t), (Rle_dec 1 t), (Rle_dec 1 (- t)); lra. }
      assert (T2 : Rmax 1 (Rabs t) <= 10 ^ 16) by (apply Rmax_lub; lra). destruct F1 as (F1 & F5), F2 as (F2 & F6), W1 as (W1 & W6), W2 as (W2 & W7).
      destruct (ray_step M D w M1 M2 HD Bd EW _ _ _ _ _ F1 F2 Ft W1 W2 (Rmax_l 1 (Rabs t)) T2 (Rmax_r _ _) Nt) as (G1 & R1). destruct (ray_step M D w M1 M2 HD Bd EW _ _ _ _ _ F5 F6 Ft W6 W7 (Rmax_l 1 (Rabs t)) T2 (Rmax_r _ _) Nt) as (G2 & R2).
      rewrite ET in R1, R2. split; [split; assumption|]. rewrite X1, X2. cbn [fst snd bpt]. pose proof (Rmax_l 1 t). assert (0 < M * (Rmax 1 t * w)) by (apply Rmult_lt_0_compat; [lra|apply Rmult_lt_0_compat; lra]).
      replace (18 * M * (34 * w) * Rmax 1 t) with (612 * (M * (Rmax 1 t * w))) by ring. split; [apply Rle_trans with (1 := R1)|apply Rle_trans with (1 := R2)]; lra.
Qed.
Print Assumptions C124_rays_partial.
(** rays with the same start: it is returned *)
Theorem C124_same_start : forall M s o, 1 <= M <= 160 -> seg_fin s -> seg_fin o -> seg_within M s -> seg_within M o ->
  2 * TH <= Rabs (cross (vsub (bpt (e1 s)) (bpt (e2 s))) (vsub (bpt (e1 o)) (bpt (e2 o)))) -> e1 s = e1 o ->
  exists x, ray_intersection s o = Some x /\ bpt x = bpt (e1 s).
Proof.
  intros M s o HM Fs Fo Ws Wo HD E. destruct (C118_same_start M s o HM Fs Fo Ws Wo HD E) as (x & Hx & Vx). exists x. split; [|exact Vx]. rewrite lsi_B in Hx. rewrite ri_B. cbv zeta in *.
  destruct (SFltb (SFabs _) _); [discriminate|]. destruct (SFltb _ (@n0 b64 NumB)); [discriminate|]. destruct (SFltb (@n1 b64 NumB) _) in Hx; [discriminate|]. cbn [orb] in *. destruct (SFltb _ (@n0 b64 NumB)); [discriminate|]. cbn [orb] in *. destruct (SFltb (@n1 b64 NumB) _) in Hx; [discriminate|]. exact Hx.
Qed.
Print Assumptions C124_same_start.
Definition f06 : b64 := S754_finite false 5404319552844595 (-53). Definition f19 : b64 := S754_finite false 8556839292003942 (-52).
Definition f12 : b64 := S754_finite false 5404319552844595 (-52). Definition f14 : b64 := S754_finite false 6305039478318694 (-52).
(** the ray from (0.6, 0.6) through (1.9, 0.7) starts exactly on the segment from (0.3, 0.2) to (1.2, 1.4), which it leaves almost at a right angle; no common point is found *)
Theorem C124_start_on_ray_refuted : exists s o v, seg_fin s /\ seg_fin o /\ seg_within 2 s /\ seg_within 2 o /\
  1 <= Rabs (cross (vsub (bpt (e1 s)) (bpt (e2 s))) (vsub (bpt (e1 o)) (bpt (e2 o)))) /\
  0 < v < 1 /\ bpt (e1 s) = along (bpt (e1 o)) (bpt (e2 o)) v /\ ray_intersection s o = None.
Proof.
  exists (Line (f06, f06) (f19, f07)), (Line (f03, f02) (f12, f14)). set (v := ((b64q f06 - b64q f03) / (b64q f12 - b64q f03))%Q). exists (Q2R v). assert (Q1 : Q2R 2 = 2) by (unfold Q2R; cbn; lra). rewrite <- Q1 at 1 2. unfold seg_fin, seg_within. cbn [M_Cg.p1 M_Cg.p2].
  do 2 (split; [split; apply fin_ptb_R; reflexivity|]). do 2 (split; [split; apply withinb_R; vm_compute; reflexivity|]). split; [|split; [|split; [|vm_compute; reflexivity]]].
  - assert (E : cross (vsub (bpt (f06, f06)) (bpt (f19, f07))) (vsub (bpt (f03, f02)) (bpt (f12, f14))) = Q2R ((b64q f06 - b64q f19) * (b64q f02 - b64q f14) - (b64q f06 - b64q f07) * (b64q f03 - b64q f12))).
    { unfold cross, vsub, bpt. cbn [fst snd]. rewrite !b64q_R, Q2R_minus, !Q2R_mult, !Q2R_minus. ring. }
    rewrite E. replace 1 with (Q2R 1) by (unfold Q2R; cbn; lra). apply Rle_trans with (2 := Rle_abs _). apply Qle_Rle, Qle_bool_iff. vm_compute. reflexivity.
  - replace 0 with (Q2R 0) by (unfold Q2R; cbn; lra). replace 1 with (Q2R 1) by (unfold Q2R; cbn; lra). split; apply Qlt_Rlt; vm_compute; reflexivity.
  - unfold along, vadd, smul, vsub, bpt. cbn [fst snd]. rewrite !b64q_R, <- !Q2R_minus, <- !Q2R_mult, <- !Q2R_plus. apply pair_eq; apply Qeq_eqR; vm_compute; reflexivity.
Qed.
Print Assumptions C124_start_on_ray_refuted.
(** rays from (0.1, 0.1) through (0.9, 0.7) and from (0.2, 0.7) through (0.7, 0.1); backwards they do not meet *)
Example C124_example : let s := Line (f01, f01) (f09, f07) in let o := Line (f02, f07) (f07, f01) in let o' := Line (f02, f07) (f01, f09) in
  seg_fin s /\ seg_fin o /\ seg_within 1 s /\ seg_within 1 o /\ 2 * TH <= Rabs (cross (vsub (bpt (e1 s)) (bpt (e2 s))) (vsub (bpt (e1 o)) (bpt (e2 o)))) /\
  ray_intersection s o = Some (S754_finite false 8452910069833854 (-54), S754_finite false 6790042515112440 (-54)) /\ ray_intersection s o' = None.
Proof.
  intros s o o'. assert (Q1 : Q2R 1 = 1) by (unfold Q2R; cbn; lra). rewrite <- Q1 at 1 2. unfold seg_fin, seg_within.
  do 2 (split; [split; apply fin_ptb_R; reflexivity|]). do 2 (split; [split; apply withinb_R; vm_compute; reflexivity|]). split; [|split; vm_compute; reflexivity]. cbn [s o M_Cg.p1 M_Cg.p2].
  assert (E : cross (vsub (bpt (f01, f01)) (bpt (f09, f07))) (vsub (bpt (f02, f07)) (bpt (f07, f01))) = Q2R ((b64q f01 - b64q f09) * (b64q f07 - b64q f01) - (b64q f01 - b64q f07) * (b64q f02 - b64q f07))).
  { unfold cross, vsub, bpt. cbn [fst snd]. rewrite !b64q_R, Q2R_minus, !Q2R_mult, !Q2R_minus. ring. }
  rewrite E. assert (E2 : 2 * TH = Q2R (2 # 10000000000)) by (unfold TH, Q2R; cbn; lra). rewrite E2, <- Rabs_Ropp. apply Rle_trans with (2 := Rle_abs _). rewrite <- Q2R_opp. apply Qle_Rle, Qle_bool_iff. vm_compute. reflexivity.
Qed.
