(** Property C115: affine_transform of utils/cg.py in binary64 arithmetic. *)
From Coq Require Import ZArith QArith Qreals Reals SpecFloat Bool Lia Lra List.
From Verif Require Import Num Spec L_Geom M_Cg L_Cg M_Float S_Float L_Float L_FloatCmp L_FloatCg L_FloatGrid P_Float P_Cg.
Import ListNotations.
Local Open Scope R_scope.

(** with real numbers the definition used here is the one of M_Cg *)
Lemma affine_num_R x r t i : affine_num cos sin x r t i = affine_transform x r t i.
Proof.
  assert (E : @n0 R NumR = 0) by (unfold n0; cbn; unfold Q2R; cbn; lra).
  unfold affine_num, affine_transform. cbn [neqb nsub nadd nmul nopp NumR]. rewrite E. destruct i, (Reqb r 0); reflexivity.
Qed.

Section Err.
  Variable M : R.
  Hypothesis M1 : 1 <= M. Hypothesis M2 : M <= p2 400.
  Notation u := (p2 (-53)).
  (** x approximates X, |X| <= b M, up to e M 2^-53 *)
  Definition ap (x : b64) (X b e : R) : Prop := bfin x /\ Rabs X <= b * M /\ Rabs (bval x - X) <= e * (M * u).
  Lemma Mu : u <= M * u /\ M * u <= M * (1 / 1000000000000000).
  Proof. pose proof u_small. split; [nra|]. apply Rmult_le_compat_l; lra. Qed.
  Lemma big : forall k, k <= 1000 -> k * M <= p2 900.
  Proof.
    intros k Hk. assert (1024 <= p2 100). { apply Rle_trans with (p2 10); [rewrite p2_Z by lia; simpl; lra|apply p2_le; lia]. }
    apply Rle_trans with (1024 * M); [nra|]. replace 900%Z with (100 + 800)%Z by lia. rewrite p2_add. apply Rmult_le_compat; try lra. apply Rle_trans with (1 := M2). apply p2_le; lia.
  Qed.
  Lemma ap_size x X b e : 0 <= e <= 100 -> ap x X b e -> Rabs (bval x) <= (b + 0.001) * M.
  Proof. intros He (F & B & E). destruct Mu as (U1 & U2). replace (bval x) with ((bval x - X) + X) by ring. pose proof (abs_sum _ _ _ _ E B). nra. Qed.
  Lemma ap_weak x X b e b' e' : b <= b' -> e <= e' -> ap x X b e -> ap x X b' e'.
  Proof. intros Hb He (F & B & E). split; auto. destruct Mu. pose proof u_small. split; [nra|]. apply Rle_trans with (1 := E). apply Rmult_le_compat_r; auto. lra. Qed.
  Lemma ap_exact x b : bfin x -> Rabs (bval x) <= b * M -> ap x (bval x) b 0.
  Proof. intros F B. split; auto. split; auto. replace (bval x - bval x) with 0 by ring. rewrite Rabs_R0. lra. Qed.
  Lemma ap_round z x X b e : near z x -> Rabs x <= (b + 0.001) * M -> Rabs X <= b * M -> Rabs (x - X) <= e * (M * u) -> ap z X b (e + b + 0.002).
  Proof.
    intros (F & N & _) B BX E. split; auto. split; auto. destruct Mu as (U1 & U2). pose proof u_small as (U3 & _). pose proof eta_small as (_ & E1).
    assert (u * Rabs x <= u * ((b + 0.001) * M)) by (apply Rmult_le_compat_l; lra). replace (bval z - X) with ((bval z - x) + (x - X)) by ring. pose proof (abs_sum _ _ _ _ N E). lra.
  Qed.
  Lemma ap_add x X b e y Y c f B : ap x X b e -> ap y Y c f -> 0 <= b <= 100 -> 0 <= c <= 100 -> 0 <= e <= 100 -> 0 <= f <= 100 -> Rabs (X + Y) <= B * M -> ap (SFadd 53 1024 x y) (X + Y) B (e + f + B + 0.002).
  Proof.
    intros Ax Ay Hb Hc He Hf HB. pose proof (ap_size _ _ _ _ He Ax) as Sx. pose proof (ap_size _ _ _ _ Hf Ay) as Sy. destruct Ax as (Fx & Bx & Ex), Ay as (Fy & By & Ey). destruct Mu as (U1 & U2).
    assert (E : Rabs ((bval x + bval y) - (X + Y)) <= (e + f) * (M * u)). { replace ((bval x + bval y) - (X + Y)) with ((bval x - X) + (bval y - Y)) by ring. pose proof (abs_sum _ _ _ _ Ex Ey). lra. }
    apply ap_round with (bval x + bval y); auto.
    - apply add_near; auto. apply Rle_trans with (1 := abs_sum _ _ _ _ Sx Sy). pose proof (big (b + 0.001 + (c + 0.001))). lra.
    - replace (bval x + bval y) with ((bval x + bval y - (X + Y)) + (X + Y)) by ring. pose proof (abs_sum _ _ _ _ E HB). nra.
  Qed.
  Lemma ap_sub x X b e y Y c f B : ap x X b e -> ap y Y c f -> 0 <= b <= 100 -> 0 <= c <= 100 -> 0 <= e <= 100 -> 0 <= f <= 100 -> Rabs (X - Y) <= B * M -> ap (SFsub 53 1024 x y) (X - Y) B (e + f + B + 0.002).
  Proof.
    intros Ax Ay Hb Hc He Hf HB. pose proof (ap_size _ _ _ _ He Ax) as Sx. pose proof (ap_size _ _ _ _ Hf Ay) as Sy. destruct Ax as (Fx & Bx & Ex), Ay as (Fy & By & Ey). destruct Mu as (U1 & U2).
    assert (E : Rabs ((bval x - bval y) - (X - Y)) <= (e + f) * (M * u)). { replace ((bval x - bval y) - (X - Y)) with ((bval x - X) - (bval y - Y)) by ring. pose proof (abs_dif _ _ _ _ Ex Ey). lra. }
    apply ap_round with (bval x - bval y); auto.
    - apply sub_near; auto. apply Rle_trans with (1 := abs_dif _ _ _ _ Sx Sy). pose proof (big (b + 0.001 + (c + 0.001))). lra.
    - replace (bval x - bval y) with ((bval x - bval y - (X - Y)) + (X - Y)) by ring. pose proof (abs_sum _ _ _ _ E HB). nra.
  Qed.
  Lemma ap_mul c C x X b e : bfin c -> Rabs C <= 1 -> Rabs (bval c - C) <= u -> ap x X b e -> 0 <= b <= 100 -> 0 <= e <= 100 -> ap (SFmul 53 1024 c x) (C * X) b (e + 2 * b + 0.01).
  Proof.
    intros Fc HC Ec Ax Hb He. pose proof (ap_size _ _ _ _ He Ax) as Sx. destruct Ax as (Fx & Bx & Ex). destruct Mu as (U1 & U2). pose proof u_small as (U3 & U4).
    assert (BC : Rabs (C * X) <= b * M) by (pose proof (abs_mul _ _ _ _ HC Bx); lra).
    assert (E : Rabs (bval c * bval x - C * X) <= (e + (b + 0.001)) * (M * u)).
    { replace (bval c * bval x - C * X) with ((bval c - C) * bval x + C * (bval x - X)) by ring. pose proof (abs_sum _ _ _ _ (abs_mul _ _ _ _ Ec Sx) (abs_mul _ _ _ _ HC Ex)). lra. }
    apply ap_weak with b (e + (b + 0.001) + b + 0.002); [lra|lra|]. assert (Sz : Rabs (bval c * bval x) <= (b + 0.001) * M).
    { replace (bval c * bval x) with ((bval c * bval x - C * X) + C * X) by ring. pose proof (abs_sum _ _ _ _ E BC). nra. }
    apply ap_round with (bval c * bval x); auto. apply mul_near; auto. pose proof (big (b + 0.001)). lra.
  Qed.

  Variables (ncos nsin : b64 -> b64) (x t : pt b64) (r : b64).
  Hypothesis Fx : bfin_pt x. Hypothesis Ft : bfin_pt t. Hypothesis Fr : bfin r. Hypothesis Wx : within M x. Hypothesis Wt : within M t. Hypothesis Tr : trig_near ncos nsin r.
  Lemma r0 : SFeqb r (@n0 b64 NumB) = Reqb (bval r) 0.
  Proof. change (@n0 b64 NumB) with (S754_zero false). rewrite eqb_spec; auto; exact I. Qed.
  Lemma cs1 : Rabs (cos (bval r)) <= 1 /\ Rabs (sin (bval r)) <= 1.
  Proof. pose proof (COS_bound (bval r)). pose proof (SIN_bound (bval r)). split; apply Rabs_le; lra. Qed.
  Lemma forward_ap : let y := affine_num ncos nsin x r t false in let Y := affine_transform (bpt x) (bval r) (bpt t) false in ap (fst y) (fst Y) 3 9.1 /\ ap (snd y) (snd Y) 3 9.1.
  Proof.
    intros y Y. destruct Fx as (F1 & F2), Ft as (F3 & F4), Wx as (B1 & B2), Wt as (B3 & B4), Tr as (Fc & Fs & Ec & Es), cs1 as (C1 & S1).
    assert (A1 : ap (fst x) (bval (fst x)) 1 0) by (apply ap_exact; auto; lra). assert (A2 : ap (snd x) (bval (snd x)) 1 0) by (apply ap_exact; auto; lra).
    assert (A3 : ap (fst t) (bval (fst t)) 1 0) by (apply ap_exact; auto; lra). assert (A4 : ap (snd t) (bval (snd t)) 1 0) by (apply ap_exact; auto; lra).
    unfold y, Y, affine_num, affine_transform. cbn [neqb nsub nadd nmul nopp NumB]. rewrite r0. destruct (Reqb (bval r) 0); cbn [negb fst snd bpt].
    - assert (Q1 : Rabs (bval (fst x) + bval (fst t)) <= 2 * M) by (pose proof (abs_sum _ _ _ _ B1 B3); lra). assert (Q2 : Rabs (bval (snd x) + bval (snd t)) <= 2 * M) by (pose proof (abs_sum _ _ _ _ B2 B4); lra).
      pose proof (ap_add _ _ _ _ _ _ _ _ 2 A1 A3 ltac:(lra) ltac:(lra) ltac:(lra) ltac:(lra) Q1) as S13. pose proof (ap_add _ _ _ _ _ _ _ _ 2 A2 A4 ltac:(lra) ltac:(lra) ltac:(lra) ltac:(lra) Q2) as S24.
      split; (eapply ap_weak; [| |eassumption]); lra.
    - pose proof (ap_mul _ _ _ _ 1 0 Fc C1 Ec A1 ltac:(lra) ltac:(lra)) as P1. pose proof (ap_mul _ _ _ _ 1 0 Fs S1 Es A2 ltac:(lra) ltac:(lra)) as P2.
      pose proof (ap_mul _ _ _ _ 1 0 Fs S1 Es A1 ltac:(lra) ltac:(lra)) as P3. pose proof (ap_mul _ _ _ _ 1 0 Fc C1 Ec A2 ltac:(lra) ltac:(lra)) as P4.
      assert (Q1 : Rabs (cos (bval r) * bval (fst x) - sin (bval r) * bval (snd x)) <= 2 * M) by (pose proof (abs_dif _ _ _ _ (proj1 (proj2 P1)) (proj1 (proj2 P2))); lra).
      assert (Q2 : Rabs (sin (bval r) * bval (fst x) + cos (bval r) * bval (snd x)) <= 2 * M) by (pose proof (abs_sum _ _ _ _ (proj1 (proj2 P3)) (proj1 (proj2 P4))); lra).
      pose proof (ap_sub _ _ _ _ _ _ _ _ 2 P1 P2 ltac:(lra) ltac:(lra) ltac:(lra) ltac:(lra) Q1) as S12. pose proof (ap_add _ _ _ _ _ _ _ _ 2 P3 P4 ltac:(lra) ltac:(lra) ltac:(lra) ltac:(lra) Q2) as S34.
      assert (R1 : Rabs (cos (bval r) * bval (fst x) - sin (bval r) * bval (snd x) + bval (fst t)) <= 3 * M) by (pose proof (abs_sum _ _ _ _ Q1 B3); lra).
      assert (R2 : Rabs (sin (bval r) * bval (fst x) + cos (bval r) * bval (snd x) + bval (snd t)) <= 3 * M) by (pose proof (abs_sum _ _ _ _ Q2 B4); lra).
      pose proof (ap_add _ _ _ _ _ _ _ _ 3 S12 A3 ltac:(lra) ltac:(lra) ltac:(lra) ltac:(lra) R1) as G1. pose proof (ap_add _ _ _ _ _ _ _ _ 3 S34 A4 ltac:(lra) ltac:(lra) ltac:(lra) ltac:(lra) R2) as G2.
      split; (eapply ap_weak; [| |eassumption]); lra.
  Qed.
  (** the inverse transform of an approximation y of Y, |Y - t| <= 2 M *)
  Lemma inverse_ap y Y b e : 0 <= b <= 10 -> 0 <= e <= 10 -> ap (fst y) (fst Y) b e -> ap (snd y) (snd Y) b e -> Rabs (fst Y - bval (fst t)) <= 2 * M -> Rabs (snd Y - bval (snd t)) <= 2 * M ->
    let z := affine_num ncos nsin y r t true in let Z := affine_transform Y (bval r) (bpt t) true in ap (fst z) (fst Z) 4 (2 * e + 16.1) /\ ap (snd z) (snd Z) 4 (2 * e + 16.1).
  Proof.
    intros Hb He A1 A2 D1 D2 z Z. destruct Ft as (F3 & F4), Wt as (B3 & B4), Tr as (Fc & Fs & Ec & Es), cs1 as (C1 & S1).
    assert (A3 : ap (fst t) (bval (fst t)) 1 0) by (apply ap_exact; auto; lra). assert (A4 : ap (snd t) (bval (snd t)) 1 0) by (apply ap_exact; auto; lra).
    pose proof (ap_sub _ _ _ _ _ _ _ _ 2 A1 A3 ltac:(lra) ltac:(lra) ltac:(lra) ltac:(lra) D1) as X1. pose proof (ap_sub _ _ _ _ _ _ _ _ 2 A2 A4 ltac:(lra) ltac:(lra) ltac:(lra) ltac:(lra) D2) as X2.
    unfold z, Z, affine_num, affine_transform. cbn [neqb nsub nadd nmul nopp NumB]. rewrite r0. destruct (Reqb (bval r) 0); cbn [negb fst snd bpt].
    - split; (eapply ap_weak; [| |eassumption]); lra.
    - destruct (opp_spec _ Fs) as (Fs' & Vs'). assert (S1' : Rabs (- sin (bval r)) <= 1) by (rewrite Rabs_Ropp; auto).
      assert (Es' : Rabs (bval (SFopp (nsin r)) - - sin (bval r)) <= p2 (-53)). { rewrite Vs'. replace (- bval (nsin r) - - sin (bval r)) with (- (bval (nsin r) - sin (bval r))) by ring. rewrite Rabs_Ropp. exact Es. }
      pose proof (ap_mul _ _ _ _ 2 _ Fc C1 Ec X1 ltac:(lra) ltac:(lra)) as P1. pose proof (ap_mul _ _ _ _ 2 _ Fs S1 Es X2 ltac:(lra) ltac:(lra)) as P2.
      pose proof (ap_mul _ _ _ _ 2 _ Fs' S1' Es' X1 ltac:(lra) ltac:(lra)) as P3. pose proof (ap_mul _ _ _ _ 2 _ Fc C1 Ec X2 ltac:(lra) ltac:(lra)) as P4.
      pose proof (abs_sum _ _ _ _ (proj1 (proj2 P1)) (proj1 (proj2 P2))) as R1. pose proof (abs_sum _ _ _ _ (proj1 (proj2 P3)) (proj1 (proj2 P4))) as R2.
      pose proof (ap_add _ _ _ _ _ _ _ _ 4 P1 P2 ltac:(lra) ltac:(lra) ltac:(lra) ltac:(lra) ltac:(lra)) as G1. pose proof (ap_add _ _ _ _ _ _ _ _ 4 P3 P4 ltac:(lra) ltac:(lra) ltac:(lra) ltac:(lra) ltac:(lra)) as G2.
      split; (eapply ap_weak; [| |eassumption]); lra.
  Qed.
End Err.

(** C115: with coordinates of magnitude at most M the transforms are within 10 M 2^-53 (forward) and 17 M 2^-53 (inverse) of the exact ones *)
Theorem C115_transforms : forall M ncos nsin x r t, 1 <= M -> M <= p2 400 -> bfin_pt x -> bfin_pt t -> bfin r -> within M x -> within M t -> trig_near ncos nsin r ->
  (let y := affine_num ncos nsin x r t false in let Y := affine_transform (bpt x) (bval r) (bpt t) false in
   bfin_pt y /\ Rabs (bval (fst y) - fst Y) <= 10 * M * / 2 ^ 53 /\ Rabs (bval (snd y) - snd Y) <= 10 * M * / 2 ^ 53) /\
  (let y := affine_num ncos nsin x r t true in let Y := affine_transform (bpt x) (bval r) (bpt t) true in
   bfin_pt y /\ Rabs (bval (fst y) - fst Y) <= 17 * M * / 2 ^ 53 /\ Rabs (bval (snd y) - snd Y) <= 17 * M * / 2 ^ 53).
Proof.
  intros M ncos nsin x r t M1 M2 Fx Ft Fr Wx Wt Tr. change (/ 2 ^ 53) with (p2 (-53)). pose proof (Mu M M1) as (U1 & U2). pose proof u_small. split; intros y Y.
  - destruct (forward_ap M M1 M2 ncos nsin x t r Fx Ft Fr Wx Wt Tr) as ((F1 & _ & E1) & (F2 & _ & E2)). fold y Y in F1, F2, E1, E2. split; [split; auto|]. split; nra.
  - destruct Fx as (Fx1 & Fx2), Wx as (B1 & B2), Wt as (B3 & B4). pose proof (abs_dif _ _ _ _ B1 B3). pose proof (abs_dif _ _ _ _ B2 B4).
    destruct (inverse_ap M M1 M2 ncos nsin t r Ft Fr (conj B3 B4) Tr x (bpt x) 1 0 ltac:(lra) ltac:(lra)) as ((F1 & _ & E1) & (F2 & _ & E2)); cbn [bpt fst snd]; try lra; try (apply ap_exact; auto; lra).
    fold y Y in F1, F2, E1, E2. split; [split; auto|]. split; nra.
Qed.
Print Assumptions C115_transforms.
(** there and back again gives the point up to 35 M 2^-53 *)
Theorem C115_round_trip_partial : forall M ncos nsin x r t, 1 <= M -> M <= p2 400 -> bfin_pt x -> bfin_pt t -> bfin r -> within M x -> within M t -> trig_near ncos nsin r ->
  let z := affine_num ncos nsin (affine_num ncos nsin x r t false) r t true in
  bfin_pt z /\ Rabs (bval (fst z) - bval (fst x)) <= 35 * M * / 2 ^ 53 /\ Rabs (bval (snd z) - bval (snd x)) <= 35 * M * / 2 ^ 53.
Proof.
  intros M ncos nsin x r t M1 M2 Fx Ft Fr Wx Wt Tr z. change (/ 2 ^ 53) with (p2 (-53)). pose proof (Mu M M1) as (U1 & U2). pose proof u_small.
  destruct (forward_ap M M1 M2 ncos nsin x t r Fx Ft Fr Wx Wt Tr) as (A1 & A2). set (Y := affine_transform (bpt x) (bval r) (bpt t) false) in *.
  assert (D : Rabs (fst Y - bval (fst t)) <= 2 * M /\ Rabs (snd Y - bval (snd t)) <= 2 * M).
  { destruct Wx as (B1 & B2), (cs1 r) as (C1 & S1). pose proof (abs_dif _ _ _ _ (abs_mul _ _ _ _ C1 B1) (abs_mul _ _ _ _ S1 B2)) as K1. pose proof (abs_sum _ _ _ _ (abs_mul _ _ _ _ S1 B1) (abs_mul _ _ _ _ C1 B2)) as K2.
    unfold Y, affine_transform. destruct (Reqb (bval r) 0); cbn [negb bpt fst snd].
    - replace (bval (fst x) + bval (fst t) - bval (fst t)) with (bval (fst x)) by ring. replace (bval (snd x) + bval (snd t) - bval (snd t)) with (bval (snd x)) by ring. lra.
    - match goal with |- Rabs ?a <= _ /\ Rabs ?b <= _ => replace a with (cos (bval r) * bval (fst x) - sin (bval r) * bval (snd x)) by ring; replace b with (sin (bval r) * bval (fst x) + cos (bval r) * bval (snd x)) by ring end. lra. }
  destruct (inverse_ap M M1 M2 ncos nsin t r Ft Fr Wt Tr _ Y 3 9.1 ltac:(lra) ltac:(lra) A1 A2 (proj1 D) (proj2 D)) as ((F1 & _ & E1) & (F2 & _ & E2)). fold z in F1, F2, E1, E2.
  assert (B : affine_transform Y (bval r) (bpt t) true = bpt x) by (apply C01_affine_roundtrip). rewrite B in E1, E2. cbn [bpt fst snd] in E1, E2. split; [split; auto|]. split; nra.
Qed.
Print Assumptions C115_round_trip_partial.
(** not exactly: 0.1 moved by 0.2 and back, without rotation *)
Theorem C115_round_trip_refuted : exists x t, bfin_pt x /\ bfin_pt t /\ within 1 x /\ within 1 t /\
  forall ncos nsin, bpt (affine_num ncos nsin (affine_num ncos nsin x (S754_zero false) t false) (S754_zero false) t true) <> bpt x.
Proof.
  exists (f01, f01), (f02, f02). split; [apply fin_ptb_R; reflexivity|]. split; [apply fin_ptb_R; reflexivity|]. assert (Q3 : 1 = Q2R 1) by (unfold Q2R; cbn; lra). rewrite Q3. repeat (split; [apply withinb_R; vm_compute; reflexivity|]).
  intros ncos nsin E. apply (f_equal fst) in E. cbn [bpt fst] in E. rewrite !b64q_R in E. apply eqR_Qeq, Qeq_bool_iff in E.
  assert (K : Qeq_bool (b64q (fst (affine_num ncos nsin (affine_num ncos nsin (f01, f01) (S754_zero false) (f02, f02) false) (S754_zero false) (f02, f02) true))) (b64q (fst (f01, f01))) = false) by (vm_compute; reflexivity). pose proof (eq_trans (eq_sym K) E) as X. discriminate X.
Qed.
Print Assumptions C115_round_trip_refuted.
(** without rotation and with coordinates k 2^-s, |k| < 2^25, nothing is lost *)
Theorem C115_grid_round_trip : forall ncos nsin s x t r, (0 <= s <= 1000)%Z -> on_grid_pt s x -> on_grid_pt s t -> bfin r -> bval r = 0 ->
  bpt (affine_num ncos nsin x r t false) = vadd (bpt x) (bpt t) /\ bpt (affine_num ncos nsin x r t true) = vsub (bpt x) (bpt t) /\
  bpt (affine_num ncos nsin (affine_num ncos nsin x r t false) r t true) = bpt x.
Proof.
  intros ncos nsin s x t r Hs (G1 & G2) (G3 & G4) Fr Er. assert (R0 : SFeqb r (@n0 b64 NumB) = true). { change (@n0 b64 NumB) with (S754_zero false). rewrite eqb_spec; auto; [|exact I]. rewrite Er. cbn [bval]. unfold Reqb. destruct (Req_EM_T 0 0); auto. }
  assert (Add : forall a b, on_grid s a -> on_grid s b -> gr s (2 ^ 25 + 2 ^ 25) (SFadd 53 1024 a b) /\ bval (SFadd 53 1024 a b) = bval a + bval b).
  { intros a b (Fa & k & Hk & Ek) (Fb & l & Hl & El). assert (E : bval a + bval b = IZR (k + l) * p2 (- s)) by (rewrite plus_IZR, Ek, El; ring).
    destruct (add_near a b Fa Fb) as (F & _ & X); [rewrite E; apply gr_small; lia|]. assert (V : bval (SFadd 53 1024 a b) = bval a + bval b) by (apply (X (k + l)%Z s); auto; lia).
    split; auto. split; auto. exists (k + l)%Z. split; [lia|congruence]. }
  destruct (Add _ _ G1 G3) as (A1 & V1), (Add _ _ G2 G4) as (A2 & V2).
  destruct (gr_sub s (2 ^ 25) (2 ^ 25) _ _ Hs ltac:(lia) G1 G3) as (_ & V3). destruct (gr_sub s (2 ^ 25) (2 ^ 25) _ _ Hs ltac:(lia) G2 G4) as (_ & V4).
  destruct (gr_sub s (2 ^ 25 + 2 ^ 25) (2 ^ 25) _ _ Hs ltac:(lia) A1 G3) as (_ & V5). destruct (gr_sub s (2 ^ 25 + 2 ^ 25) (2 ^ 25) _ _ Hs ltac:(lia) A2 G4) as (_ & V6).
  unfold affine_num. cbn [neqb nsub nadd NumB]. rewrite R0. unfold bpt. cbn [fst snd]. rewrite V1, V2, V3, V4, V5, V6, V1, V2. unfold vadd, vsub. cbn [fst snd].
  split; [reflexivity|]. split; [reflexivity|]. apply pair_eq; ring.
Qed.
Print Assumptions C115_grid_round_trip.
(** functions as required of np.cos and np.sin: multiples of 2^-53, rounded down *)
Definition down (x : R) : b64 := binary_normalize 53 1024 (Int_part (x * 2 ^ 53)) (-53) false.
Lemma down_near x : -1 <= x <= 1 -> bfin (down x) /\ Rabs (bval (down x) - x) <= / 2 ^ 53.
Proof.
  intros Hx. unfold down. set (k := Int_part (x * 2 ^ 53)). destruct (base_Int_part (x * 2 ^ 53)) as (K1 & K2). fold k in K1, K2. change (2 ^ 53) with (p2 53) in *. change (/ p2 53) with (p2 (-53)). rewrite (p2_Z 53) in K1, K2 by lia. change (2 ^ 53)%Z with 9007199254740992%Z in K1, K2.
  pose proof u_val as U. set (u := p2 (-53)) in *. assert (B : (-9007199254740992 <= k <= 9007199254740992)%Z).
  { assert (-9007199254740993 < IZR k <= 9007199254740992) as (A1 & A2) by lra. apply lt_IZR in A1. apply le_IZR in A2. lia. }
  assert (V : bfin (binary_normalize 53 1024 k (-53) false) /\ bval (binary_normalize 53 1024 k (-53) false) = IZR k * u).
  { destruct (normalize_near k (-53) false) as (F & _ & X).
    - rewrite Rabs_mult. apply Rle_trans with (p2 53 * p2 0); [|rewrite <- p2_add; apply p2_le; lia]. apply Rmult_le_compat; try apply Rabs_pos; [rewrite <- abs_IZR, p2_Z by lia; apply IZR_le; lia|]. rewrite Rabs_pos_eq by (left; apply p2_pos). apply p2_le; lia.
    - split; auto. destruct (Z.eq_dec (Z.abs k) (2 ^ 53)) as [A|A].
      + assert (k = 9007199254740992 \/ k = -9007199254740992)%Z as [->| ->] by lia.
        * rewrite b64q_R. assert (E : b64q (binary_normalize 53 1024 9007199254740992 (-53) false) == 1) by (vm_compute; reflexivity). rewrite (Qeq_eqR _ _ E). unfold Q2R. cbn [Qnum Qden]. lra.
        * rewrite b64q_R. assert (E : b64q (binary_normalize 53 1024 (-9007199254740992) (-53) false) == -1) by (vm_compute; reflexivity). rewrite (Qeq_eqR _ _ E). unfold Q2R. cbn [Qnum Qden]. lra.
      + apply (X k 53%Z); [lia|lia|reflexivity]. }
  destruct V as (F & ->). split; auto. assert (0 < u) by apply p2_pos. apply Rabs_le. nra.
Qed.
Example C115_example : exists ncos nsin, let r := f07 in let x := (f01, f02) in let t := (f09, f04) in
  bfin_pt x /\ bfin_pt t /\ bfin r /\ within 1 x /\ within 1 t /\ trig_near ncos nsin r /\ bval r <> 0 /\ on_grid_pt 16 (gp 70000 3) /\ on_grid_pt 16 (gp (-5) 1000000).
Proof.
  exists (fun r => down (cos (bval r))), (fun r => down (sin (bval r))). intros r x t. repeat (split; [apply fin_ptb_R; reflexivity|]). split; [reflexivity|]. assert (Q3 : 1 = Q2R 1) by (unfold Q2R; cbn; lra).
  split; [rewrite Q3; apply withinb_R; vm_compute; reflexivity|]. split; [rewrite Q3; apply withinb_R; vm_compute; reflexivity|].
  split.
  { destruct (down_near (cos (bval r)) (COS_bound _)) as (A & B), (down_near (sin (bval r)) (SIN_bound _)) as (C & D). split; auto. }
  split; [pose proof (pos_val 6305039478318694 (-53)) as P; unfold r, f07; cbn [bval]; lra|]. split; apply gp_grid; reflexivity.
Qed.
