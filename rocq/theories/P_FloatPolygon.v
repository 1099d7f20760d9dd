(** Property C135: Polygon._check_convexity of obstacles/polygon.py in binary64 arithmetic. *)
From Coq Require Import ZArith QArith Qreals Reals SpecFloat Bool Lia Lra List.
From Verif Require Import Num Spec L_Geom M_Cg L_Cg M_Motion M_Obstacle M_Polygon M_FloatPolygon M_Float S_Float L_Float L_FloatCmp L_FloatCg L_FloatGrid L_Polygon P_Float P_FloatCones.
Import ListNotations.
Local Open Scope R_scope.

(** the same code as in C52, where the numbers are real *)
Lemma n0_R : (n0 : R) = 0.
Proof. cbv [n0 nlit NumR]. unfold Q2R. cbn. lra. Qed.
Theorem C135_same_code : forall v : list Pt, check_convexity_num v = check_convexity v.
Proof.
  intros v. unfold check_convexity_num, check_convexity. cbv zeta. assert (S1 : forall fuel i, skip_collinear_num fuel i v = skip_collinear fuel i v).
  { induction fuel as [|fuel IH]; intros i; [reflexivity|]. cbn [skip_collinear_num skip_collinear]. unfold corner_num, at_corner, corner. rewrite n0_R, IH. reflexivity. }
  rewrite S1. assert (E : forall f i, corner_num f v i = at_corner f v i) by (intros; unfold corner_num, at_corner, corner; rewrite n0_R; reflexivity).
  assert (X : forall f, existsb (corner_num f v) (seq 0 (length v)) = existsb (at_corner f v) (seq 0 (length v))). { intros f. induction (seq 0 (length v)) as [|i l IH]; [reflexivity|]. cbn [existsb]. rewrite IH, E. reflexivity. }
  rewrite !X, !n0_R. reflexivity.
Qed.
Print Assumptions C135_same_code.

Section Ring.
  Variable v : list (pt b64).
  Hypotheses (Fv : Forall bfin_pt v) (Wv : Forall (within 160) v).
  Notation n := (length v).
  Let t (i : nat) : R := turn (map bpt v) i.
  Lemma vertex i : (i < n)%nat -> bfin_pt (nth i v (n0, n0)) /\ within 160 (nth i v (n0, n0)) /\ bpt (nth i v (n0, n0)) = nth i (map bpt v) (0, 0).
  Proof.
    intros Hi. rewrite Forall_forall in Fv, Wv. pose proof (nth_In v (n0, n0) Hi) as H. split; [auto|]. split; [auto|]. rewrite (nth_indep (map bpt v) (0, 0) (bpt (n0, n0))) by (rewrite map_length; exact Hi). rewrite map_nth. reflexivity.
  Qed.
  Lemma pred_lt i : (i < n)%nat -> (pred_idx i n < n)%nat.
  Proof. destruct i; cbn [pred_idx]; lia. Qed.
  Lemma next_lt i : (i < n)%nat -> ((i + 1) mod n < n)%nat.
  Proof. intros H. apply Nat.mod_upper_bound. lia. Qed.
  Lemma tests i : (i < n)%nat ->
    (corner_num is_ccw v i = true -> 0 < t i) /\ (corner_num is_cw v i = true -> t i < 0) /\ (corner_num is_collinear v i = true -> Rabs (t i) < 2 * TH) /\
    (2 * TH <= t i -> corner_num is_ccw v i = true) /\ (t i <= - 2 * TH -> corner_num is_cw v i = true) /\ (t i = 0 -> corner_num is_collinear v i = true).
  Proof.
    intros Hi. destruct (vertex i Hi) as (F1 & W1 & E1). destruct (vertex _ (pred_lt i Hi)) as (F0 & W0 & E0). destruct (vertex _ (next_lt i Hi)) as (F2 & W2 & E2).
    pose proof (C112_turn_tests _ _ _ F0 F1 F2 W0 W1 W2) as H. rewrite E0, E1, E2 in H. assert (ET : t i = area2 (nth (pred_idx i n) (map bpt v) (0, 0)) (nth i (map bpt v) (0, 0)) (nth ((i + 1) mod n) (map bpt v) (0, 0))).
    { pose proof (corner_turn (map bpt v) i) as C. unfold corner in C. rewrite map_length in C. symmetry. exact (C Hi). }
    rewrite ET. exact H.
  Qed.
  Lemma skip_spec : forall fuel i, (forall j, (j < i)%nat -> corner_num is_collinear v j = true) -> (i <= n)%nat -> (n - i < fuel)%nat ->
    (skip_collinear_num fuel i v = Exn IndexErr /\ forall j, (j < n)%nat -> corner_num is_collinear v j = true) \/
    exists k, (k < n)%nat /\ corner_num is_collinear v k = false /\ (forall j, (j < k)%nat -> corner_num is_collinear v j = true) /\ skip_collinear_num fuel i v = Ret k.
  Proof.
    induction fuel as [|fuel IH]; intros i Hj Hi Hf; [lia|]. cbn [skip_collinear_num]. destruct (Nat.leb_spec n i); [left; split; [reflexivity|]; intros j Hn; apply Hj; lia|].
    destruct (corner_num is_collinear v i) eqn:E; [|right; exists i; auto]. destruct (Nat.ltb_spec n (i + 1)); [lia|]. apply IH; [|lia|lia]. intros j Hlt. destruct (Nat.eq_dec j i) as [->|]; [exact E|apply Hj; lia].
  Qed.
  (** at every vertex one of the three tests says yes *)
  Hypothesis decided : forall i, (i < n)%nat -> corner_num is_collinear v i = true \/ corner_num is_cw v i = true \/ corner_num is_ccw v i = true.
  Lemma any_test f : existsb (corner_num f v) (seq 0 n) = true <-> exists i, (i < n)%nat /\ corner_num f v i = true.
  Proof. rewrite existsb_exists. split; intros (i & H1 & H2); exists i; (split; [|exact H2]); [apply in_seq in H1; lia|apply in_seq; lia]. Qed.
  Lemma answer : (forall b, check_convexity_num v = Ret b ->
      (b = false -> exists i j, (i < n)%nat /\ (j < n)%nat /\ 0 < t i /\ t j < 0) /\
      (b = true -> (forall i, (i < n)%nat -> - 2 * TH < t i) \/ forall i, (i < n)%nat -> t i < 2 * TH)) /\
    ((exists i, (i + 1 < n)%nat /\ 2 * TH <= Rabs (t i)) -> exists b, check_convexity_num v = Ret b).
  Proof.
    unfold check_convexity_num. cbv zeta. destruct (skip_spec (n + 2) 0 ltac:(lia) ltac:(lia) ltac:(lia)) as [(-> & C)|(k & Hk & K & J & ->)]; cbn [bind].
    - split; [discriminate|]. intros (i & Hi & L). destruct (tests i ltac:(lia)) as (_ & _ & T3 & _). specialize (T3 (C i ltac:(lia))). lra.
    - destruct (Nat.leb_spec n (k + 1)) as [L|L].
      + split; [discriminate|]. intros (i & Hi & A). destruct (tests i ltac:(lia)) as (_ & _ & T3 & _). specialize (T3 (J i ltac:(lia))). lra.
      + split; [|intros _; destruct (is_cw _ _ _); eauto]. assert (CE : is_cw (nth (pred_idx k n) v (n0, n0)) (nth k v (n0, n0)) (nth (k + 1) v (n0, n0)) = corner_num is_cw v k) by (unfold corner_num; rewrite (Nat.mod_small (k + 1)) by lia; reflexivity).
        rewrite CE. clear CE. intros b E. destruct (tests k Hk) as (K1 & K2 & _). destruct (corner_num is_cw v k) eqn:Ck; injection E as <-; rewrite ?negb_true_iff, ?negb_false_iff; split; intros A.
        * apply any_test in A as (i & Hi & Ci). exists i, k. destruct (tests i Hi) as (T1 & _). auto.
        * right. intros i Hi. destruct (tests i Hi) as (_ & _ & _ & T4 & _). apply Rnot_le_lt. intros G. assert (X : existsb (corner_num is_ccw v) (seq 0 n) = true) by (apply any_test; eauto). congruence.
        * apply any_test in A as (i & Hi & Ci). exists k, i. destruct (tests i Hi) as (_ & T2 & _). destruct (decided k Hk) as [Q|[Q|Q]]; [congruence|congruence|]. auto.
        * left. intros i Hi. destruct (tests i Hi) as (_ & _ & _ & _ & T5 & _). apply Rnot_le_lt. intros G. assert (X : existsb (corner_num is_cw v) (seq 0 n) = true) by (apply any_test; eauto). congruence.
  Qed.
End Ring.

(** C135: coordinates up to 160. [turn] is twice the signed area at a vertex, in exact arithmetic. Not convex is only answered for a ring that has a left turn and a right turn; convex is only
    answered when the turns beyond twice the threshold are all to one side. *)
Theorem C135_convexity : forall v : list (pt b64), Forall bfin_pt v -> Forall (within 160) v ->
  (forall i, (i < length v)%nat -> corner_num is_collinear v i = true \/ corner_num is_cw v i = true \/ corner_num is_ccw v i = true) ->
  (forall b, check_convexity_num v = Ret b ->
      (b = false -> exists i j, (i < length v)%nat /\ (j < length v)%nat /\ 0 < turn (map bpt v) i /\ turn (map bpt v) j < 0) /\
      (b = true -> (forall i, (i < length v)%nat -> - 2 * TH < turn (map bpt v) i) \/ forall i, (i < length v)%nat -> turn (map bpt v) i < 2 * TH)) /\
  ((exists i, (i + 1 < length v)%nat /\ 2 * TH <= Rabs (turn (map bpt v) i)) -> exists b, check_convexity_num v = Ret b).
Proof. intros v Fv Wv D. exact (answer v Fv Wv D). Qed.
Print Assumptions C135_convexity.
(** no test is left undecided when all turns are 0 or beyond twice the threshold; then a ring without a left turn, or without a right turn, is answered to be convex, and no other *)
Theorem C135_convexity_clear : forall v : list (pt b64), Forall bfin_pt v -> Forall (within 160) v ->
  (forall i, (i < length v)%nat -> turn (map bpt v) i = 0 \/ 2 * TH <= Rabs (turn (map bpt v) i)) -> (exists i, (i + 1 < length v)%nat /\ turn (map bpt v) i <> 0) ->
  exists b, check_convexity_num v = Ret b /\ (b = true <-> (forall i, (i < length v)%nat -> 0 <= turn (map bpt v) i) \/ (forall i, (i < length v)%nat -> turn (map bpt v) i <= 0)).
Proof.
  intros v Fv Wv G (i0 & Hi0 & N0). pose proof TH_pos as TP. assert (AB : forall x, 2 * TH <= Rabs x -> 2 * TH <= x \/ x <= - 2 * TH) by (intros x Hx; unfold Rabs in Hx; destruct (Rcase_abs x); lra).
  assert (D : forall i, (i < length v)%nat -> corner_num is_collinear v i = true \/ corner_num is_cw v i = true \/ corner_num is_ccw v i = true).
  { intros i Hi. destruct (tests v Fv Wv i Hi) as (_ & _ & _ & T4 & T5 & T6). destruct (G i Hi) as [Q|Q]; [auto|]. destruct (AB _ Q); auto. }
  destruct (C135_convexity v Fv Wv D) as (A & B). destruct B as (b & Eb); [exists i0; split; [exact Hi0|]; destruct (G i0 ltac:(lia)); [contradiction|assumption]|]. exists b. split; [exact Eb|].
  destruct (A b Eb) as (A1 & A2). split.
  - intros Hb. destruct (A2 Hb) as [Q|Q]; [left|right]; intros i Hi; specialize (Q i Hi); destruct (G i Hi) as [Z0|Z0]; try lra; destruct (AB _ Z0); lra.
  - intros Q. destruct b; [reflexivity|]. destruct (A1 eq_refl) as (i & j & Hi & Hj & P1 & P2). exfalso. destruct Q as [Q|Q]; [specialize (Q j Hj)|specialize (Q i Hi)]; lra.
Qed.
Print Assumptions C135_convexity_clear.
(** the answers at the threshold itself: the number 1e-10 is neither below the threshold nor beyond it, and a convex polygon whose first turn is exactly this is said not to be convex *)
Definition edge_ring : list (pt b64) := [(n1, n0); (n1, SFopp COLLINEAR_THRESHOLD); (n0, SFopp n1); (n0, n0)].
Theorem C135_threshold_refuted : exists v : list (pt b64), Forall bfin_pt v /\ Forall (within 160) v /\ (forall i, (i < length v)%nat -> turn (map bpt v) i < 0) /\ check_convexity_num v = Ret false.
Proof.
  exists edge_ring. split; [unfold edge_ring; repeat (apply Forall_cons; [apply fin_ptb_R; vm_compute; reflexivity|]); apply Forall_nil|].
  assert (Q3 : 160 = Q2R 160) by (unfold Q2R; cbn; lra). rewrite Q3. split; [unfold edge_ring; repeat (apply Forall_cons; [apply withinb_R; vm_compute; reflexivity|]); apply Forall_nil|].
  split; [|vm_compute; reflexivity]. pose proof th_val as V. assert (B0 : bval (@n0 b64 NumB) = 0) by reflexivity. assert (B1 : bval (@n1 b64 NumB) = 1) by (rewrite b64q_R; transitivity (Q2R 1); [apply Qeq_eqR; vm_compute; reflexivity|unfold Q2R; cbn; lra]).
  assert (O1 : forall x : b64, bfin x -> bval (SFopp x) = - bval x) by (intros x Fx; apply opp_spec; exact Fx).
  intros i Hi. cbn in Hi. assert (E : map bpt edge_ring = [(1, 0); (1, - bval (@COLLINEAR_THRESHOLD b64 NumB)); (0, - 1); (0, 0)]) by (unfold edge_ring, bpt; cbn [map fst snd]; rewrite !O1 by (vm_compute; reflexivity); repeat apply f_equal2; first [exact B0|exact B1|reflexivity|change (@n1 spec_float NumB) with (@n1 b64 NumB); rewrite B1; lra]). rewrite E. clear E.
  revert V. generalize (bval (@COLLINEAR_THRESHOLD b64 NumB)) as e. intros e V. destruct i as [|[|[|[|i]]]]; try lia; unfold turn, area2, cross, vsub; cbn; lra.
Qed.
Print Assumptions C135_threshold_refuted.
(** *** a triangle with a vertex in the middle of a side, and an arrow *)
Example C135_example : let g := grid_cone_pt in let v := [g 0%Z 0%Z; g 2%Z 0%Z; g 4%Z 0%Z; g 0%Z 4%Z] in let w := [g 0%Z 0%Z; g 4%Z (-4)%Z; g 1%Z 0%Z; g 4%Z 4%Z] in
  (Forall bfin_pt v /\ Forall (within 160) v /\ (forall i, (i < length v)%nat -> turn (map bpt v) i = 0 \/ 2 * TH <= Rabs (turn (map bpt v) i)) /\ turn (map bpt v) 0 <> 0) /\
  check_convexity_num v = Ret true /\ check_convexity_num w = Ret false.
Proof.
  cbv zeta. assert (Q3 : 160 = Q2R 160) by (unfold Q2R; cbn; lra). split; [|split; vm_compute; reflexivity].
  split; [repeat (apply Forall_cons; [apply fin_ptb_R; vm_compute; reflexivity|]); apply Forall_nil|].
  split; [rewrite Q3; repeat (apply Forall_cons; [apply withinb_R; vm_compute; reflexivity|]); apply Forall_nil|].
  cbn [map]. rewrite !(fun x y Hx Hy => proj2 (half_int x y Hx Hy)) by reflexivity. split; [|unfold turn, area2, cross, vsub; cbn; lra].
  intros i Hi. cbn in Hi. unfold TH. destruct i as [|[|[|[|i]]]]; try lia; unfold turn, area2, cross, vsub; cbn; [right|left; lra|right|right]; rewrite Rabs_pos_eq; lra.
Qed.
