(** Property C118: LineSegment.line_segment_intersection of utils/cg.py in binary64 arithmetic. *)
From Coq Require Import ZArith QArith Qreals Reals SpecFloat Bool Lia Lra List.
From Verif Require Import Num Spec L_Geom M_Cg L_Cg M_Float S_Float L_Float L_FloatCmp L_FloatDiv L_FloatCg L_FloatGrid L_FloatLine L_FloatSeg W_PolTriangles P_Float.
Import ListNotations.
Local Open Scope R_scope.
Local Notation u := (p2 (-53)).
(** the ends of a segment, LineSegment.p1 and p2 *)
Notation e1 := M_Cg.p1. Notation e2 := M_Cg.p2.
Definition seg_fin (s : line b64) : Prop := bfin_pt (e1 s) /\ bfin_pt (e2 s).
Definition seg_within (M : R) (s : line b64) : Prop := within M (e1 s) /\ within M (e2 s).

(** the generic definition, with the three products named *)
Lemma lsi_B (s o : line b64) : line_segment_intersection s o =
  let den := crsB (e2 s) (e1 s) (e2 o) (e1 o) in
  if SFltb (SFabs den) (@COLLINEAR_THRESHOLD b64 NumB) then None else
  let t := SFdiv 53 1024 (crsB (e1 o) (e1 s) (e2 o) (e1 o)) den in let v := SFdiv 53 1024 (crsB (e1 o) (e1 s) (e2 s) (e1 s)) den in
  if SFltb t (@n0 b64 NumB) || SFltb (@n1 b64 NumB) t || SFltb v (@n0 b64 NumB) || SFltb (@n1 b64 NumB) v then None
  else Some (SFsub 53 1024 (fst (e1 s)) (SFmul 53 1024 t (SFsub 53 1024 (fst (e1 s)) (fst (e2 s)))), SFsub 53 1024 (snd (e1 s)) (SFmul 53 1024 t (SFsub 53 1024 (snd (e1 s)) (snd (e2 s))))).
Proof. reflexivity. Qed.
Lemma n1_run : @n1 b64 NumB = S754_finite false 4503599627370496 (-52). Proof. vm_compute. reflexivity. Qed.
Lemma n1_val : bfin (@n1 b64 NumB) /\ bval (@n1 b64 NumB) = 1.
Proof. rewrite n1_run. split; [reflexivity|]. cbn [bval]. change (-52)%Z with (- (52))%Z. rewrite p2_inv, p2_Z by lia. change (2 ^ 52)%Z with 4503599627370496%Z. lra. Qed.
Lemma outside_spec t v : bfin t -> bfin v -> SFltb t (@n0 b64 NumB) || SFltb (@n1 b64 NumB) t || SFltb v (@n0 b64 NumB) || SFltb (@n1 b64 NumB) v = false <-> 0 <= bval t <= 1 /\ 0 <= bval v <= 1.
Proof.
  intros Ft Fv. destruct n1_val as (F1 & V1). change (@n0 b64 NumB) with (S754_zero false). rewrite !ltb_spec by (auto; exact I). rewrite V1. cbn [bval]. unfold Rltb. split.
  - intros H. apply orb_false_elim in H as (H & H4). apply orb_false_elim in H as (H & H3). apply orb_false_elim in H as (H1 & H2). destruct (Rlt_dec (bval t) 0), (Rlt_dec 1 (bval t)), (Rlt_dec (bval v) 0), (Rlt_dec 1 (bval v)); try discriminate. lra.
  - intros (H1 & H2). destruct (Rlt_dec (bval t) 0), (Rlt_dec 1 (bval t)), (Rlt_dec (bval v) 0), (Rlt_dec 1 (bval v)); try reflexivity; lra.
Qed.
Section Seg.
  Variables (M : R) (s o : line b64).
  Hypothesis M1 : 1 <= M. Hypothesis M2 : M <= 160. Hypothesis Fs : seg_fin s. Hypothesis Fo : seg_fin o. Hypothesis Ws : seg_within M s. Hypothesis Wo : seg_within M o.
  Notation S1 := (bpt (e1 s)). Notation S2 := (bpt (e2 s)). Notation O1 := (bpt (e1 o)). Notation O2 := (bpt (e2 o)).
  Definition sden : R := cross (vsub S1 S2) (vsub O1 O2).
  Hypothesis HD : 2 * TH <= Rabs sden.
  Definition sW : R := M * M * u / Rabs sden.
  Lemma seg_all t v : along S1 S2 t = along O1 O2 v ->
    exists t' v', bfin t' /\ bfin v' /\ (Rabs t <= 1 -> Rabs (bval t' - t) <= 150 * sW) /\ (Rabs (bval t') <= 1 -> Rabs (bval t' - t) <= 80 * sW) /\
      (Rabs v <= 1 -> Rabs (bval v' - v) <= 150 * sW) /\ (Rabs (bval v') <= 1 -> Rabs (bval v' - v) <= 80 * sW) /\
      line_segment_intersection s o = if SFltb t' (@n0 b64 NumB) || SFltb (@n1 b64 NumB) t' || SFltb v' (@n0 b64 NumB) || SFltb (@n1 b64 NumB) v' then None
        else Some (SFsub 53 1024 (fst (e1 s)) (SFmul 53 1024 t' (SFsub 53 1024 (fst (e1 s)) (fst (e2 s)))), SFsub 53 1024 (snd (e1 s)) (SFmul 53 1024 t' (SFsub 53 1024 (snd (e1 s)) (snd (e2 s))))).
  Proof.
    intros E. destruct Fs as (F1 & F2), Fo as (F3 & F4), Ws as (W1 & W2), Wo as (W3 & W4). pose proof (Mb400 M M2) as Mb.
    destruct (crs_err M (e2 s) (e1 s) (e2 o) (e1 o)) as (Gd & Ed & Bd); auto. fold sden in Ed, Bd. destruct (crs_err M (e1 o) (e1 s) (e2 o) (e1 o)) as (Gt & Et & Bt); auto. destruct (crs_err M (e1 o) (e1 s) (e2 s) (e1 s)) as (Gv & Ev & Bv); auto.
    pose proof TH_pos as T. assert (D0 : 0 < Rabs sden) by lra. assert (EW : sW * Rabs sden = M * M * u) by (unfold sW; field; lra).
    assert (X : fst (along S1 S2 t) = fst (along O1 O2 v) /\ snd (along S1 S2 t) = snd (along O1 O2 v)) by (rewrite E; auto). unfold along, vadd, smul, vsub in X. cbn [fst snd] in X. destruct X as (X1 & X2).
    assert (Kt : t * sden = cross (vsub S1 O1) (vsub O1 O2)).
    { unfold sden, cross, vsub. cbn [fst snd]. replace (fst S1 - fst O1) with (v * (fst O2 - fst O1) - t * (fst S2 - fst S1)) by lra. replace (snd S1 - snd O1) with (v * (snd O2 - snd O1) - t * (snd S2 - snd S1)) by lra. ring. }
    assert (Kv : v * sden = cross (vsub S1 O1) (vsub S1 S2)).
    { unfold sden, cross, vsub. cbn [fst snd]. replace (fst S1 - fst O1) with (v * (fst O2 - fst O1) - t * (fst S2 - fst S1)) by lra. replace (snd S1 - snd O1) with (v * (snd O2 - snd O1) - t * (snd S2 - snd S1)) by lra. ring. }
    destruct (quot_err M (Rabs sden) sW M1 M2 HD Bd EW _ _ _ _ t Gt Gd Et Bt Ed eq_refl Kt) as (Ft & Q1 & Q2). destruct (quot_err M (Rabs sden) sW M1 M2 HD Bd EW _ _ _ _ v Gv Gd Ev Bv Ed eq_refl Kv) as (Fv & Q3 & Q4).
    destruct (seg_consts M (Rabs sden) sW M1 M2 HD Bd EW) as (_ & (W0 & _) & _ & HE).
    exists (SFdiv 53 1024 (crsB (e1 o) (e1 s) (e2 o) (e1 o)) (crsB (e2 s) (e1 s) (e2 o) (e1 o))), (SFdiv 53 1024 (crsB (e1 o) (e1 s) (e2 s) (e1 s)) (crsB (e2 s) (e1 s) (e2 o) (e1 o))).
    do 6 (split; [assumption|]). rewrite lsi_B. cbv zeta. destruct (abs_spec _ Gd) as (Fa & Va). rewrite (ltb_spec _ _ Fa th_fin), Va. pose proof th_near as TN. pose proof (MM3 M M1 M2) as (_ & M3).
    assert (Dy : 1.001 * TH <= Rabs (bval (crsB (e2 s) (e1 s) (e2 o) (e1 o)))). { pose proof (Rabs_triang_inv sden (sden - bval (crsB (e2 s) (e1 s) (e2 o) (e1 o)))) as H. replace (sden - (sden - bval (crsB (e2 s) (e1 s) (e2 o) (e1 o)))) with (bval (crsB (e2 s) (e1 s) (e2 o) (e1 o))) in H by ring. rewrite (Rabs_minus_sym sden) in H. lra. }
    unfold Rltb. destruct (Rlt_dec _ _) as [L|_]; [lra|reflexivity].
  Qed.
End Seg.
(** segments that are not nearly parallel: a crossing away from the ends is found, and what is found is near the crossing of the lines and near both segments *)
Theorem C118_segments_partial : forall M s o, 1 <= M <= 160 -> seg_fin s -> seg_fin o -> seg_within M s -> seg_within M o ->
  let D := Rabs (cross (vsub (bpt (e1 s)) (bpt (e2 s))) (vsub (bpt (e1 o)) (bpt (e2 o)))) in 2 * TH <= D -> let e := 150 * M ^ 2 / (2 ^ 53 * D) in
  forall t v p, p = along (bpt (e1 s)) (bpt (e2 s)) t -> p = along (bpt (e1 o)) (bpt (e2 o)) v ->
  (e <= t <= 1 - e -> e <= v <= 1 - e -> line_segment_intersection s o <> None) /\
  (forall x, line_segment_intersection s o = Some x -> - e <= t <= 1 + e /\ - e <= v <= 1 + e /\ bfin_pt x /\ Rabs (bval (fst x) - fst p) <= 2 * M * e /\ Rabs (bval (snd x) - snd p) <= 2 * M * e).
Proof.
  intros M s o (M1 & M2) Fs Fo Ws Wo D HD e t v p E1 E2. destruct (seg_all M s o M1 M2 Fs Fo Ws Wo HD t v) as (t' & v' & Ft & Fv & Q1 & Q2 & Q3 & Q4 & EL); [congruence|].
  assert (D0 : D <> 0) by (pose proof TH_pos; lra). assert (EE : e = 150 * sW M s o). { unfold e, sW. change (Rabs (sden s o)) with D. change u with (/ 2 ^ 53). field. auto. }
  assert (EW : sW M s o * D = M * M * u) by (unfold sW; change (Rabs (sden s o)) with D; field; auto). destruct Fs as (F1 & F2), Ws as (W1 & W2).
  assert (BD : D <= 8 * (M * M)). { destruct (crs_err M (e2 s) (e1 s) (e2 o) (e1 o)) as (_ & _ & B); auto; try apply Fo; try apply Wo. apply Mb400; auto. }
  destruct (seg_consts M D _ M1 M2 HD BD EW) as (_ & (W0 & _) & _). set (w := sW M s o) in *. rewrite EE in *. split.
  - intros Ht Hv. rewrite EL. assert (A1 : Rabs t <= 1) by (apply Rabs_le; lra). assert (A2 : Rabs v <= 1) by (apply Rabs_le; lra). specialize (Q1 A1). specialize (Q3 A2). assert (Y1 : forall x X z, Rabs (x - X) <= z -> X - z <= x <= X + z).
    { intros x X z H. pose proof (Rle_abs (x - X)). pose proof (Rle_abs (- (x - X))). rewrite Rabs_Ropp in *. lra. } apply Y1 in Q1, Q3.
    assert (O : SFltb t' (@n0 b64 NumB) || SFltb (@n1 b64 NumB) t' || SFltb v' (@n0 b64 NumB) || SFltb (@n1 b64 NumB) v' = false) by (apply outside_spec; auto; lra). rewrite O. discriminate.
  - intros x Hx. rewrite EL in Hx. destruct (SFltb t' (@n0 b64 NumB) || SFltb (@n1 b64 NumB) t' || SFltb v' (@n0 b64 NumB) || SFltb (@n1 b64 NumB) v') eqn:O; [discriminate|]. apply outside_spec in O as (O1 & O2); auto. injection Hx as <-.
    assert (A1 : Rabs (bval t') <= 1) by (apply Rabs_le; lra). assert (A2 : Rabs (bval v') <= 1) by (apply Rabs_le; lra). specialize (Q2 A1). specialize (Q4 A2).
    assert (Y1 : forall x X z, Rabs (x - X) <= z -> X - z <= x <= X + z). { intros x X z H. pose proof (Rle_abs (x - X)). pose proof (Rle_abs (- (x - X))). rewrite Rabs_Ropp in *. lra. }
    pose proof (Y1 _ _ _ Q2). pose proof (Y1 _ _ _ Q4). split; [lra|]. split; [lra|]. destruct F1 as (F1 & F3), F2 as (F2 & F4), W1 as (W1 & W3), W2 as (W2 & W4).
    destruct (step_err M D w M1 M2 HD BD EW _ _ _ t F1 F2 Ft W1 W2 A1 Q2) as (G1 & R1), (step_err M D w M1 M2 HD BD EW _ _ _ t F3 F4 Ft W3 W4 A1 Q2) as (G2 & R2).
    split; [split; assumption|]. rewrite E1. unfold along, vadd, smul, vsub, bpt. cbn [fst snd]. replace (2 * M * (150 * w)) with (300 * (M * w)) by ring. split; assumption.
Qed.
Print Assumptions C118_segments_partial.

Lemma zero_of_val x : bfin x -> bval x = 0 -> exists b, x = S754_zero b.
Proof.
  destruct x as [b|b| |b m e]; cbn [bfin bval]; intros F V; try contradiction; [exists b; reflexivity|exfalso]. pose proof (p2_pos e). assert (0 < IZR (Zpos m)) by (apply IZR_lt; lia). destruct b; nra.
Qed.
Lemma sub_self x : bfin x -> exists b, SFsub 53 1024 x x = S754_zero b.
Proof.
  intros F. destruct (sub_near x x F F) as (G & _ & X). { replace (bval x - bval x) with 0 by ring. rewrite Rabs_R0. apply Rlt_le, p2_pos. }
  apply zero_of_val; auto. rewrite (X 0%Z 0%Z); [ring|lia|cbn; lia|ring].
Qed.
(** segments with the same first point: this point is returned *)
Theorem C118_same_start : forall M s o, 1 <= M <= 160 -> seg_fin s -> seg_fin o -> seg_within M s -> seg_within M o ->
  2 * TH <= Rabs (cross (vsub (bpt (e1 s)) (bpt (e2 s))) (vsub (bpt (e1 o)) (bpt (e2 o)))) -> e1 s = e1 o ->
  exists x, line_segment_intersection s o = Some x /\ bpt x = bpt (e1 s).
Proof.
  intros M s o (M1 & M2) Fs Fo Ws Wo HD E.
  pose proof (Mb400 M M2) as Mb. destruct Fs as (F1 & F2), Fo as (F3 & F4), Ws as (W1 & W2), Wo as (W3 & W4). destruct (crs_err M (e2 s) (e1 s) (e2 o) (e1 o)) as (Gd & Ed & Bd); auto.
  assert (Dy : 1.001 * TH <= Rabs (bval (crsB (e2 s) (e1 s) (e2 o) (e1 o)))).
  { set (d := cross _ _) in *. set (y := bval _) in *. pose proof (Rabs_triang_inv d (d - y)) as H. replace (d - (d - y)) with y in H by ring. rewrite (Rabs_minus_sym d) in H. pose proof (MM3 M M1 M2) as (_ & M3). pose proof TH_pos. lra. }
  rewrite lsi_B. cbv zeta. destruct (abs_spec _ Gd) as (Fa & Va). rewrite (ltb_spec _ _ Fa th_fin), Va. pose proof th_near as TN. unfold Rltb. destruct (Rlt_dec _ _) as [L|_]; [lra|]. pose proof TH_pos as T.
  assert (ZZ : forall c d, bfin_pt c -> bfin_pt d -> within M c -> within M d -> exists b, SFdiv 53 1024 (crsB (e1 o) (e1 s) c d) (crsB (e2 s) (e1 s) (e2 o) (e1 o)) = S754_zero b).
  { intros c d Fc Fd Wc Wd. revert Gd Dy. generalize (crsB (e2 s) (e1 s) (e2 o) (e1 o)). intros dv Gd Dy. rewrite <- E. unfold crsB. destruct F1 as (F5 & F6). destruct (sub_self _ F5) as (b1 & ->), (sub_self _ F6) as (b2 & ->).
    assert (ZM : forall b x, bfin x -> exists b', SFmul 53 1024 (S754_zero b) x = S754_zero b') by (intros b [|?| |? ? ?] Hx; cbn in *; eauto; contradiction).
    destruct Fc as (Fc1 & Fc2), Fd as (Fd1 & Fd2), Wc as (Wc1 & Wc2), Wd as (Wd1 & Wd2). destruct (dif_err M M1 Mb _ _ Fd1 Fc1 Wd1 Wc1) as (G1 & _). destruct (dif_err M M1 Mb _ _ Fd2 Fc2 Wd2 Wc2) as (G2 & _).
    destruct (ZM b1 _ G2) as (b3 & ->), (ZM b2 _ G1) as (b4 & ->). assert (exists b, SFsub 53 1024 (S754_zero b3) (S754_zero b4) = S754_zero b) as (b5 & ->) by (destruct b3, b4; cbn; eauto).
    destruct dv as [b|b| |b m e]; cbn [bfin] in Gd; try contradiction; [cbn [bval] in Dy; rewrite Rabs_R0 in Dy; lra|cbn [SFdiv]; eauto]. }
  destruct (ZZ (e2 o) (e1 o)) as (b1 & ->); auto. destruct (ZZ (e2 s) (e1 s)) as (b2 & ->); auto.
  assert (O : SFltb (S754_zero b1) (@n0 b64 NumB) || SFltb (@n1 b64 NumB) (S754_zero b1) || SFltb (S754_zero b2) (@n0 b64 NumB) || SFltb (@n1 b64 NumB) (S754_zero b2) = false) by (apply outside_spec; [exact I|exact I|cbn [bval]; lra]). rewrite O.
  eexists. split; [reflexivity|]. unfold bpt. cbn [fst snd].
  assert (K : forall x y b, bfin x -> bfin y -> Rabs (bval x) <= M -> Rabs (bval y) <= M -> bval (SFsub 53 1024 x (SFmul 53 1024 (S754_zero b) (SFsub 53 1024 x y))) = bval x).
  { intros x y b Fx Fy Bx By. destruct (dif_err M M1 Mb _ _ Fx Fy Bx By) as (G & _). destruct (SFsub 53 1024 x y) as [c|c| |c m e]; cbn [bfin] in G; try contradiction; cbn [SFmul];
      destruct x as [a|a| |a n f]; cbn [bfin] in Fx; try contradiction; cbn [SFsub bval]; auto; destruct (Bool.eqb _ _); reflexivity. }
  destruct F1 as (F5 & F6), F2 as (F7 & F8), W1 as (W5 & W6), W2 as (W7 & W8). rewrite !K; auto.
Qed.
Print Assumptions C118_same_start.
Definition f08 : b64 := S754_finite false 7205759403792794 (-53). Definition f05 : b64 := S754_finite false 4503599627370496 (-53).
(** the segments from (0.8, 0.3) and from (0.5, 0.3) to (0.3, 0.7): no common point is found *)
Theorem C118_common_end_refuted : exists s o, seg_fin s /\ seg_fin o /\ seg_within 1 s /\ seg_within 1 o /\
  1 / 10 <= Rabs (cross (vsub (bpt (e1 s)) (bpt (e2 s))) (vsub (bpt (e1 o)) (bpt (e2 o)))) /\ e2 s = e2 o /\ line_segment_intersection s o = None.
Proof.
  exists (Line (f08, f03) (f03, f07)), (Line (f05, f03) (f03, f07)). assert (Q1 : Q2R 1 = 1) by (unfold Q2R; cbn; lra). rewrite <- Q1 at 1 2. unfold seg_fin, seg_within. cbn [M_Cg.p1 M_Cg.p2].
  split; [split; apply fin_ptb_R; reflexivity|]. split; [split; apply fin_ptb_R; reflexivity|]. split; [split; apply withinb_R; vm_compute; reflexivity|]. split; [split; apply withinb_R; vm_compute; reflexivity|]. split; [|split; [reflexivity|vm_compute; reflexivity]].
  replace (cross _ _) with (area2 (bpt (f03, f07)) (bpt (f08, f03)) (bpt (f05, f03))) by reflexivity. rewrite !bqp_R, areaQ_R. rewrite <- Rabs_Ropp. apply Rle_trans with (2 := Rle_abs _). rewrite <- Q2R_opp. replace (1 / 10) with (Q2R (1 # 10)) by (unfold Q2R; cbn; lra). apply Qle_Rle, Qle_bool_iff. vm_compute. reflexivity.
Qed.
Print Assumptions C118_common_end_refuted.
(** the segments from (0.1, 0.1) to (0.9, 0.7) and from (0.2, 0.7) to (0.7, 0.1); the first and the one from (0.1, 0.1) to (0.7, 0.1) *)
Example C118_example : let s := Line (f01, f01) (f09, f07) in let o := Line (f02, f07) (f07, f01) in let o' := Line (f01, f01) (f07, f01) in
  seg_fin s /\ seg_fin o /\ seg_fin o' /\ seg_within 1 s /\ seg_within 1 o /\ seg_within 1 o' /\
  2 * TH <= Rabs (cross (vsub (bpt (e1 s)) (bpt (e2 s))) (vsub (bpt (e1 o')) (bpt (e2 o')))) /\ e1 s = e1 o' /\
  line_segment_intersection s o = Some (S754_finite false 8452910069833854 (-54), S754_finite false 6790042515112440 (-54)).
Proof.
  intros s o o'. assert (Q1 : Q2R 1 = 1) by (unfold Q2R; cbn; lra). rewrite <- Q1 at 1 2 3. unfold seg_fin, seg_within.
  do 3 (split; [split; apply fin_ptb_R; reflexivity|]). do 3 (split; [split; apply withinb_R; vm_compute; reflexivity|]). split; [|split; [reflexivity|vm_compute; reflexivity]]. cbn [s o o' M_Cg.p1 M_Cg.p2].
  replace (cross _ _) with (area2 (bpt (f01, f01)) (bpt (f09, f07)) (bpt (f07, f01))) by (unfold area2, cross, vsub; cbn [fst snd]; ring). rewrite !bqp_R, areaQ_R. rewrite <- Rabs_Ropp. apply Rle_trans with (2 := Rle_abs _). rewrite <- Q2R_opp. assert (E2 : 2 * TH = Q2R (2 # 10000000000)) by (unfold TH, Q2R; cbn; lra). rewrite E2. apply Qle_Rle, Qle_bool_iff. vm_compute. reflexivity.
Qed.
