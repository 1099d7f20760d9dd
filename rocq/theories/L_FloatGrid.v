(** Orientation tests, segment crossing and the gift-wrapping hull in binary64 against exact arithmetic *)
From Coq Require Import ZArith QArith Qreals Reals SpecFloat Bool Lia Lra List.
From Verif Require Import Num Spec M_Cg L_Cg M_Hull M_Float S_Float L_Float L_FloatCmp L_FloatCg.
Import ListNotations.
Local Open Scope R_scope.

(** *** numbers n 2^-s *)
Definition gr (s B : Z) (x : b64) : Prop := bfin x /\ exists k : Z, (Z.abs k < B)%Z /\ bval x = IZR k * p2 (- s).
Lemma gr_small s k : (0 <= s)%Z -> (Z.abs k < 2 ^ 53)%Z -> Rabs (IZR k * p2 (- s)) <= p2 900.
Proof.
  intros Hs Hk. pose proof (p2_pos (- s)). rewrite Rabs_mult, (Rabs_pos_eq (p2 (- s))), <- abs_IZR by lra. replace 900%Z with (900 + 0)%Z by lia. rewrite p2_add. apply Rmult_le_compat; [apply IZR_le; lia|lra| |apply p2_le; lia].
  apply Rle_trans with (p2 53); [rewrite p2_Z by lia; apply IZR_le; lia|apply p2_le; lia].
Qed.
Lemma gr_sub s B C x y : (0 <= s <= 1000)%Z -> (B + C <= 2 ^ 53)%Z -> gr s B x -> gr s C y -> gr s (B + C) (SFsub 53 1024 x y) /\ bval (SFsub 53 1024 x y) = bval x - bval y.
Proof.
  intros Hs HB (Fx & k & Hk & Ek) (Fy & l & Hl & El). assert (E : bval x - bval y = IZR (k - l) * p2 (- s)) by (rewrite minus_IZR, Ek, El; ring).
  assert (Hkl : (Z.abs (k - l) < B + C)%Z) by lia.
  destruct (sub_near x y Fx Fy) as (F & _ & X); [rewrite E; apply gr_small; lia|]. assert (V : bval (SFsub 53 1024 x y) = bval x - bval y) by (apply (X (k - l)%Z s); auto; lia).
  split; auto. split; auto. exists (k - l)%Z. split; auto. congruence.
Qed.
Lemma gr_mul s t B C x y : (0 <= s)%Z -> (0 <= t)%Z -> (s + t <= 1000)%Z -> (0 < B)%Z -> (0 < C)%Z -> (B * C <= 2 ^ 53)%Z -> gr s B x -> gr t C y -> gr (s + t) (B * C) (SFmul 53 1024 x y) /\ bval (SFmul 53 1024 x y) = bval x * bval y.
Proof.
  intros Hs Ht Hst B0 C0 HB (Fx & k & Hk & Ek) (Fy & l & Hl & El). assert (E : bval x * bval y = IZR (k * l) * p2 (- (s + t))) by (replace (- (s + t))%Z with (- s + - t)%Z by lia; rewrite p2_add, mult_IZR, Ek, El; ring).
  assert (Hkl : (Z.abs (k * l) < B * C)%Z) by (rewrite Z.abs_mul; nia).
  destruct (mul_near x y Fx Fy) as (F & _ & X); [rewrite E; apply gr_small; lia|]. assert (V : bval (SFmul 53 1024 x y) = bval x * bval y) by (apply (X (k * l)%Z (s + t)%Z); auto; lia).
  split; auto. split; auto. exists (k * l)%Z. split; auto. congruence.
Qed.
Lemma orient_exact s a b c : (0 <= s <= 500)%Z -> on_grid_pt s a -> on_grid_pt s b -> on_grid_pt s c ->
  gr (s + s) (2 ^ 53) (orientation_val a b c) /\ bval (orientation_val a b c) = - area2 (bpt a) (bpt b) (bpt c).
Proof.
  intros Hs (G1 & G2) (G3 & G4) (G5 & G6). unfold orientation_val. cbn [nsub nmul NumB].
  destruct (gr_sub s (2 ^ 25) (2 ^ 25) _ _ ltac:(lia) ltac:(lia) G4 G2) as (A1 & V1). destruct (gr_sub s (2 ^ 25) (2 ^ 25) _ _ ltac:(lia) ltac:(lia) G5 G3) as (A2 & V2).
  destruct (gr_sub s (2 ^ 25) (2 ^ 25) _ _ ltac:(lia) ltac:(lia) G3 G1) as (A3 & V3). destruct (gr_sub s (2 ^ 25) (2 ^ 25) _ _ ltac:(lia) ltac:(lia) G6 G4) as (A4 & V4).
  destruct (gr_mul s s (2 ^ 25 + 2 ^ 25) (2 ^ 25 + 2 ^ 25) _ _ ltac:(lia) ltac:(lia) ltac:(lia) ltac:(lia) ltac:(lia) ltac:(lia) A1 A2) as (B1 & W1). destruct (gr_mul s s (2 ^ 25 + 2 ^ 25) (2 ^ 25 + 2 ^ 25) _ _ ltac:(lia) ltac:(lia) ltac:(lia) ltac:(lia) ltac:(lia) ltac:(lia) A3 A4) as (B2 & W2).
  destruct (gr_sub (s + s) ((2 ^ 25 + 2 ^ 25) * (2 ^ 25 + 2 ^ 25)) ((2 ^ 25 + 2 ^ 25) * (2 ^ 25 + 2 ^ 25)) _ _ ltac:(lia) ltac:(lia) B1 B2) as (C & W). split; [exact C|]. rewrite W, W1, W2, V1, V2, V3, V4. unfold area2, cross, vsub, bpt. cbn [fst snd]. ring.
Qed.
Lemma between n T : 120892581961462 < T * 1208925819614629174706176 < 120892581961463 -> (IZR n * p2 (-80) < T <-> (n <= 120892581961462)%Z).
Proof.
  intros HT. change (-80)%Z with (- (80))%Z. rewrite p2_inv, p2_Z by lia. change (2 ^ 80)%Z with 1208925819614629174706176%Z.
  assert (E : IZR n * / 1208925819614629174706176 < T <-> IZR n < T * 1208925819614629174706176) by lra. rewrite E. split; intros H.
  - assert (IZR n < IZR 120892581961463) by lra. apply lt_IZR in H0. lia.
  - apply IZR_le in H. lra.
Qed.
Lemma th_between n : IZR n * p2 (-80) < bval (@COLLINEAR_THRESHOLD b64 NumB) <-> IZR n * p2 (-80) < TH.
Proof. pose proof th_val. rewrite !between; [tauto| |]; unfold TH; lra. Qed.
Lemma th_grid s x : (0 <= s <= 40)%Z -> gr (s + s) (2 ^ 53) x ->
  (bval x < bval (@COLLINEAR_THRESHOLD b64 NumB) <-> bval x < TH) /\ (- bval x < bval (@COLLINEAR_THRESHOLD b64 NumB) <-> - bval x < TH) /\
  (bval (@COLLINEAR_THRESHOLD b64 NumB) < bval x <-> TH < bval x) /\ (bval (@COLLINEAR_THRESHOLD b64 NumB) < - bval x <-> TH < - bval x).
Proof.
  intros Hs (_ & k & _ & E). set (n := (k * 2 ^ (80 - (s + s)))%Z).
  assert (E' : bval x = IZR n * p2 (-80)). { unfold n. rewrite mult_IZR, <- p2_Z by lia. rewrite Rmult_assoc, <- p2_add, E. do 2 f_equal. lia. }
  assert (N : - bval x = IZR (- n) * p2 (-80)) by (rewrite opp_IZR, E'; ring). rewrite N, E'. pose proof th_val as V.
  assert (D : forall m, IZR m * p2 (-80) <> bval (@COLLINEAR_THRESHOLD b64 NumB) /\ IZR m * p2 (-80) <> TH).
  { intros m. pose proof (between m (bval (@COLLINEAR_THRESHOLD b64 NumB)) ltac:(lra)) as H1. pose proof (between m TH ltac:(unfold TH; lra)) as H2.
    change (-80)%Z with (- (80))%Z in *. rewrite p2_inv, p2_Z in * by lia. change (2 ^ 80)%Z with 1208925819614629174706176%Z in *.
    split; intros K.
    - assert (IZR m < IZR 120892581961463 /\ IZR 120892581961462 < IZR m) as (A & B) by lra. apply lt_IZR in A, B. lia.
    - unfold TH in K. assert (IZR m < IZR 120892581961463 /\ IZR 120892581961462 < IZR m) as (A & B) by lra. apply lt_IZR in A, B. lia. }
  pose proof (th_between n) as T1. pose proof (th_between (- n)) as T2. destruct (D n) as (D1 & D2), (D (- n)%Z) as (D3 & D4).
  split; [exact T1|]. split; [exact T2|]. split; split; intros H; lra.
Qed.

(** *** the tests agree when the orientation value is finite and on the same side of the thresholds *)
Lemma Rltb_iff x y x' y' : (x < y <-> x' < y') -> Rltb x y = Rltb x' y'.
Proof. intros H. unfold Rltb. destruct (Rlt_dec x y), (Rlt_dec x' y'); tauto. Qed.
Lemma Q2R_TH : Q2R (1 # 10000000000) = TH. Proof. unfold Q2R, TH. cbn. lra. Qed.
Lemma ov_R (a b c : Pt) : orientation_val a b c = - area2 a b c.
Proof. unfold orientation_val, area2, cross, vsub. cbn. ring. Qed.
Lemma is_ccw_B a b c : bfin (orientation_val a b c) -> is_ccw a b c = Rltb (bval (orientation_val a b c)) (- bval (@COLLINEAR_THRESHOLD b64 NumB)).
Proof. intros F. unfold is_ccw. cbn [nltb nopp NumB]. destruct (opp_spec _ th_fin) as (Fo & Vo). rewrite ltb_spec, Vo; auto. Qed.
Lemma is_cw_B a b c : bfin (orientation_val a b c) -> is_cw a b c = Rltb (bval (@COLLINEAR_THRESHOLD b64 NumB)) (bval (orientation_val a b c)).
Proof. intros F. unfold is_cw. cbn [nltb NumB]. rewrite ltb_spec; auto. apply th_fin. Qed.
Lemma is_col_B a b c : bfin (orientation_val a b c) -> is_collinear a b c = Rltb (Rabs (bval (orientation_val a b c))) (bval (@COLLINEAR_THRESHOLD b64 NumB)).
Proof. intros F. unfold is_collinear. cbn [nltb nabs NumB]. destruct (abs_spec _ F) as (Fo & Vo). rewrite ltb_spec, Vo; auto. apply th_fin. Qed.
Lemma is_ccw_Rb (a b c : Pt) : is_ccw a b c = Rltb (- area2 a b c) (- TH).
Proof. unfold is_ccw, COLLINEAR_THRESHOLD. cbn [nltb nopp nlit NumR]. rewrite ov_R, Q2R_TH. reflexivity. Qed.
Lemma is_cw_Rb (a b c : Pt) : is_cw a b c = Rltb TH (- area2 a b c).
Proof. unfold is_cw, COLLINEAR_THRESHOLD. cbn [nltb nopp nlit NumR]. rewrite ov_R, Q2R_TH. reflexivity. Qed.
Lemma is_col_Rb (a b c : Pt) : is_collinear a b c = Rltb (Rabs (- area2 a b c)) TH.
Proof. unfold is_collinear, COLLINEAR_THRESHOLD. cbn [nltb nabs nlit NumR]. rewrite ov_R, Q2R_TH. reflexivity. Qed.
Lemma tests_grid s a b c : (0 <= s <= 40)%Z -> on_grid_pt s a -> on_grid_pt s b -> on_grid_pt s c ->
  is_ccw a b c = is_ccw (bpt a) (bpt b) (bpt c) /\ is_cw a b c = is_cw (bpt a) (bpt b) (bpt c) /\ is_collinear a b c = is_collinear (bpt a) (bpt b) (bpt c).
Proof.
  intros Hs Ga Gb Gc. destruct (orient_exact s a b c) as (G & V); auto; [lia|]. pose proof (th_grid s _ Hs G) as (T1 & T2 & T3 & T4). destruct G as (F & _).
  rewrite is_ccw_B, is_cw_B, is_col_B, is_ccw_Rb, is_cw_Rb, is_col_Rb; auto. rewrite V in *. split; [|split]; apply Rltb_iff; auto.
  - split; intros H; [apply Ropp_lt_cancel|apply Ropp_lt_cancel]; rewrite ?Ropp_involutive in *; apply T4; lra.
  - unfold Rabs. destruct (Rcase_abs _); auto.
Qed.

(** *** the hull *)
Definition out_bpt (o : hull_out b64) : hull_out R := match o with HullError => HullError | HullRunning => HullRunning | Hull h => Hull (map bpt h) end.
Section HullAgree.
  Variable P : list (pt b64).
  Hypothesis FP : forall p, In p P -> bfin_pt p.
  Hypothesis AP : forall p q r, In p P -> In q P -> In r P -> is_ccw p q r = is_ccw (bpt p) (bpt q) (bpt r).
  Hypothesis NE : P <> [].
  Lemma nthp_map i : nthp (map bpt P) i = bpt (nthp P i).
  Proof.
    unfold nthp. replace ((n0, n0) : pt R) with (bpt (n0, n0)); [apply map_nth|]. unfold bpt, n0. cbn [nlit NumR fst snd]. change (nlit 0 : b64) with (S754_zero false). cbn [bval].
    replace (Q2R 0) with 0 by (unfold Q2R; cbn; lra). reflexivity.
  Qed.
  Lemma in_nth i : (i < length P)%nat -> In (nthp P i) P. Proof. intros H. apply nth_In. auto. Qed.
  Lemma lm_step l i : (l < length P)%nat -> (i < length P)%nat -> leftmost_step (map bpt P) l i = leftmost_step P l i /\ (leftmost_step P l i < length P)%nat.
  Proof.
    intros Hl Hi. unfold leftmost_step. rewrite !nthp_map. unfold bpt at 1 2 3 4 5 6. cbn [fst snd]. destruct (FP _ (in_nth i Hi)) as (F1 & F2), (FP _ (in_nth l Hl)) as (F3 & F4).
    cbn [nltb neqb NumB NumR]. rewrite !ltb_spec, eqb_spec by auto. split; [reflexivity|]. repeat destruct (_ : bool); auto.
  Qed.
  Lemma lm_fold is : forall l, (l < length P)%nat -> (forall i, In i is -> (i < length P)%nat) ->
    fold_left (leftmost_step (map bpt P)) is l = fold_left (leftmost_step P) is l /\ (fold_left (leftmost_step P) is l < length P)%nat.
  Proof. induction is as [|i t IH]; intros l Hl Hi; cbn [fold_left]; auto. destruct (lm_step l i) as (E & B); auto; [apply Hi; cbn; auto|]. rewrite E. apply IH; auto. intros j Hj. apply Hi. cbn. auto. Qed.
  Lemma lp : (0 < length P)%nat. Proof. destruct P; [congruence|cbn; lia]. Qed.
  Lemma lm_eq : leftmost (map bpt P) = leftmost P /\ (leftmost P < length P)%nat.
  Proof. unfold leftmost. rewrite map_length. apply lm_fold; [apply lp|]. intros i Hi. apply in_seq in Hi. pose proof lp. lia. Qed.
  Lemma wr_fold p is : forall q, (p < length P)%nat -> (q < length P)%nat -> (forall i, In i is -> (i < length P)%nat) ->
    fold_left (wrap_step (map bpt P) p) is q = fold_left (wrap_step P p) is q /\ (fold_left (wrap_step P p) is q < length P)%nat.
  Proof.
    induction is as [|i t IH]; intros q Hp Hq Hi; cbn [fold_left]; auto. assert (Hi' : (i < length P)%nat) by (apply Hi; cbn; auto).
    assert (E : wrap_step (map bpt P) p q i = wrap_step P p q i). { unfold wrap_step. rewrite !nthp_map, <- AP; auto using in_nth. }
    rewrite E. apply IH; auto; [unfold wrap_step; destruct (is_ccw _ _ _); auto|]. intros j Hj. apply Hi. cbn. auto.
  Qed.
  Lemma nq_eq p : (p < length P)%nat -> next_q (map bpt P) p = next_q P p /\ (next_q P p < length P)%nat.
  Proof. intros Hp. unfold next_q. rewrite map_length. apply wr_fold; auto; [apply Nat.mod_upper_bound; pose proof lp; lia|]. intros i Hi. apply in_seq in Hi. lia. Qed.
  Lemma loop_eq fuel : forall p l, (p < length P)%nat -> hull_loop (map bpt P) fuel p l = option_map (map bpt) (hull_loop P fuel p l).
  Proof.
    induction fuel as [|f IH]; intros p l Hp; cbn [hull_loop]; auto. destruct (nq_eq p Hp) as (E & B). rewrite E, nthp_map. destruct (Nat.eqb (next_q P p) l); [reflexivity|].
    rewrite (IH _ l B). destruct (hull_loop P f (next_q P p) l); reflexivity.
  Qed.
  Lemma hull_eq fuel : convex_hull fuel (map bpt P) = out_bpt (convex_hull fuel P).
  Proof.
    destruct lm_eq as (E & B). pose proof (loop_eq fuel (leftmost P) (leftmost P) B) as L.
    assert (exists p t, P = p :: t) as (p & t & NE') by (destruct P; [congruence|eauto]). rewrite NE' in *. unfold convex_hull.
    cbn [map]. change (bpt p :: map bpt t) with (map bpt (p :: t)). rewrite E, L. destruct (hull_loop (p :: t) fuel _ _); reflexivity.
  Qed.
End HullAgree.

(** *** rounds of the loop, for any kind of number *)
Section AnyNum.
  Context {T : Type} {N : Num T}.
  Variable P : list (pt T).
  Lemma any_loop_fuel f : forall p l h, hull_loop P f p l = Some h -> forall f', (f <= f')%nat -> hull_loop P f' p l = Some h.
  Proof.
    induction f as [|f IH]; intros p l h H f' Hf; [discriminate|]. destruct f' as [|f']; [lia|]. cbn [hull_loop] in *. destruct (Nat.eqb (next_q P p) l); auto.
    destruct (hull_loop P f (next_q P p) l) as [t|] eqn:E; [|discriminate]. rewrite (IH _ _ _ E f') by lia. auto.
  Qed.
  Lemma any_hull_fuel f h : convex_hull f P = Hull h -> forall f', (f <= f')%nat -> convex_hull f' P = Hull h.
  Proof.
    unfold convex_hull. destruct P as [|x t] eqn:EP; [discriminate|]. rewrite <- EP. intros H f' Hf. destruct (hull_loop P f _ _) as [h'|] eqn:E; [|discriminate]. rewrite (any_loop_fuel _ _ _ _ E f' Hf). auto.
  Qed.
  Lemma any_fold p is : forall q, (q < length P)%nat -> (forall i, In i is -> (i < length P)%nat) -> (fold_left (wrap_step P p) is q < length P)%nat.
  Proof. induction is as [|i t IH]; intros q Hq Hi; cbn [fold_left]; auto. apply IH; [|intros j Hj; apply Hi; cbn; auto]. unfold wrap_step. destruct (is_ccw _ _ _); auto. apply Hi. cbn. auto. Qed.
  Lemma any_next p : P <> [] -> (next_q P p < length P)%nat.
  Proof. intros NE. assert (0 < length P)%nat by (destruct P; [congruence|cbn; lia]). unfold next_q. apply any_fold; [apply Nat.mod_upper_bound; lia|]. intros i Hi. apply in_seq in Hi. lia. Qed.
  Lemma any_loop_in f : P <> [] -> forall p l h, (p < length P)%nat -> hull_loop P f p l = Some h -> incl h P.
  Proof.
    intros NE. induction f as [|f IH]; intros p l h Hp H; [discriminate|]. cbn [hull_loop] in H. destruct (Nat.eqb (next_q P p) l).
    - injection H as <-. intros x [<-|[]]. apply nth_In; auto.
    - destruct (hull_loop P f (next_q P p) l) as [t|] eqn:E; [|discriminate]. injection H as <-. intros x [<-|Hx]; [apply nth_In; auto|]. apply (IH _ _ _ (any_next p NE) E). auto.
  Qed.
  Lemma any_lm is : forall l, (l < length P)%nat -> (forall i, In i is -> (i < length P)%nat) -> (fold_left (leftmost_step P) is l < length P)%nat.
  Proof. induction is as [|i t IH]; intros q Hq Hi; cbn [fold_left]; auto. apply IH; [|intros j Hj; apply Hi; cbn; auto]. assert (i < length P)%nat by (apply Hi; cbn; auto). unfold leftmost_step. repeat destruct (_ : bool); auto. Qed.
  Lemma any_hull_in f h : convex_hull f P = Hull h -> incl h P.
  Proof.
    unfold convex_hull. destruct P as [|x t] eqn:EP; [discriminate|]. rewrite <- EP. intros H. destruct (hull_loop P f _ _) as [h'|] eqn:E; [|discriminate]. injection H as <-.
    apply (any_loop_in f) with (3 := E); [rewrite EP; discriminate|]. unfold leftmost. apply any_lm; [rewrite EP; cbn; lia|]. intros i Hi. apply in_seq in Hi. lia.
  Qed.
End AnyNum.
Lemma pt_dec (p q : Pt) : {p = q} + {p <> q}.
Proof. destruct p as [a b], q as [c d]. destruct (Req_EM_T a c) as [->|]; [|right; congruence]. destruct (Req_EM_T b d) as [->|]; [left; auto|right; congruence]. Qed.
