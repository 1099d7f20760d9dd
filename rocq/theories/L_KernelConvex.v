(** Convex polygons and the kernel; the dart theorem in final form. *)
From Coq Require Import Reals Lra Psatz List Bool Arith ZArith Lia.
From Verif Require Import Num Spec S_PolHull S_Kernel M_Cg M_Obstacle M_Polygon M_PolHull M_Kernel L_Geom L_Cg L_KernelDart L_DartGeom L_DartKernel P_Polygon.
Import ListNotations.
Local Open Scope R_scope.

Lemma along_side (a b p q : Pt) t : area2 a b (along p q t) = (1 - t) * area2 a b p + t * area2 a b q.
Proof. destruct a, b, p, q. unv. ring. Qed.
Lemma left_convex v : convex (left_of_all v).
Proof.
  intros p q r Hp Hq (t & Ht & ->) a b E. rewrite along_side. specialize (Hp a b E). specialize (Hq a b E).
  apply Rplus_le_le_0_compat; apply Rmult_le_pos; lra.
Qed.
Lemma left_kernel_all v x : kernel_of (left_of_all v) x <-> left_of_all v x.
Proof. unfold kernel_of, starshaped_from. split; [now intros [H _]|]. intros H. split; [exact H|]. intros p r Hp Hr. exact (left_convex v x p r H Hp Hr). Qed.

Lemma dist_mix (c a b : Pt) t k : 0 <= t <= 1 -> dist c a <= k -> dist c b <= k -> dist c (along a b t) <= k.
Proof.
  intros T Ha Hb. unfold dist in *.
  replace (vsub c (along a b t)) with (vadd (smul (1 - t) (vsub c a)) (smul t (vsub c b))) by (destruct a, b, c; unv; f_equal; ring).
  eapply Rle_trans; [apply norm_triangle|]. rewrite !norm_smul, !Rabs_right by lra.
  assert ((1 - t) * norm (vsub c a) <= (1 - t) * k) by (apply Rmult_le_compat_l; lra). assert (t * norm (vsub c b) <= t * k) by (apply Rmult_le_compat_l; lra). lra.
Qed.

Lemma not_convex v : (forall i, (i < length v)%nat -> Rabs (turn v i) <> TH) ->
  (exists i, (i + 1 < length v)%nat /\ TH <= Rabs (turn v i)) -> (exists i, (i < length v)%nat /\ turn v i < - TH) -> (exists i, (i < length v)%nat /\ TH < turn v i) ->
  check_convexity v = Ret false.
Proof.
  intros H (i & I1 & I2) (j & J1 & J2) (k & K1 & K2). destruct (C52_convexity_partial v H) as [E F].
  destruct (proj2 E (ex_intro _ i (conj I1 I2))) as [[|] B]; [exfalso|exact B].
  destruct (F _ B) as [[G _] _]. destruct (G eq_refl) as [G'|G']; [specialize (G' j J1)|specialize (G' k K1)]; lra.
Qed.
Lemma big_neg x : TH < x -> Rabs x <> TH /\ TH <= Rabs x.
Proof. intros H. pose proof TH_pos. rewrite Rabs_right by lra. lra. Qed.
Lemma big_neg' x : x < - TH -> Rabs x <> TH /\ TH <= Rabs x.
Proof. intros H. pose proof TH_pos. rewrite Rabs_left by lra. lra. Qed.
Lemma not_convex4 u0 u1 u2 u3 : TH < Rabs (area2 u3 u0 u1) -> TH < Rabs (area2 u0 u1 u2) -> TH < Rabs (area2 u1 u2 u3) -> TH < Rabs (area2 u2 u3 u0) ->
  (exists i, (i < 4)%nat /\ turn [u0; u1; u2; u3] i < - TH) -> (exists i, (i < 4)%nat /\ TH < turn [u0; u1; u2; u3] i) ->
  check_convexity [u0; u1; u2; u3] = Ret false.
Proof.
  intros H0 H1 H2 H3 N P. apply not_convex; [| |exact N|exact P].
  - intros [|[|[|[|i]]]] Hi; cbn in Hi; [| | | |lia]; unfold turn; cbn [length Nat.add Nat.sub Nat.modulo Nat.divmod fst snd nth]; lra.
  - exists 0%nat. split; [cbn; lia|]. unfold turn; cbn [length Nat.add Nat.sub Nat.modulo Nat.divmod fst snd nth]; lra.
Qed.

Definition rotations4 (o a b c : Pt) : list (list Pt) := [[o; a; b; c]; [a; b; c; o]; [b; c; o; a]; [c; o; a; b]].
Lemma dart_not_convex o a b c v : area2 c o a < - TH -> TH < area2 o a b -> TH < area2 a b c -> TH < area2 b c o ->
  In v (rotations4 o a b c) -> check_convexity v = Ret false.
Proof.
  intros H0 H1 H2 H3 I. pose proof TH_pos.
  assert (A0 : TH < Rabs (area2 c o a)) by (rewrite Rabs_left; lra). assert (A1 : TH < Rabs (area2 o a b)) by (rewrite Rabs_right; lra).
  assert (A2 : TH < Rabs (area2 a b c)) by (rewrite Rabs_right; lra). assert (A3 : TH < Rabs (area2 b c o)) by (rewrite Rabs_right; lra).
  destruct I as [<-|[<-|[<-|[<-|[]]]]]; apply not_convex4; try assumption.
  - exists 0%nat. split; [lia|exact H0].
  - exists 1%nat. split; [lia|exact H1].
  - exists 3%nat. split; [lia|exact H0].
  - exists 0%nat. split; [lia|exact H1].
  - exists 2%nat. split; [lia|exact H0].
  - exists 3%nat. split; [lia|exact H1].
  - exists 1%nat. split; [lia|exact H0].
  - exists 2%nat. split; [lia|exact H1].
Qed.

Lemma base_along (o x y c : Pt) s t k u v : c = bary o x y s t -> u = k * s -> v = k * t -> bary o x y u v = along o c k.
Proof. intros -> -> ->. destruct o, x, y. unfold bary. unv. f_equal; ring. Qed.

(** the result on a dart *)
Lemma dart_result o a b c p q :
  area2 c o a < - TH -> TH < area2 o a b -> TH < area2 b c o ->
  dist a b <= 150 -> dist b c <= 150 -> dist c a <= 150 ->
  on_line a b p -> on_line o c p -> on_line b c q -> on_line o a q ->
  dist b c / 10 <= area2 p b c -> 1 / 10 <= dist q c ->
  forall v, In v (rotations4 o a b c) ->
    compute_kernel v = Ret (Some [o; p; b; q]) /\ encloses v (quad o a b c) /\
    (forall x, left_of_all [o; p; b; q] x <-> kernel_of (quad o a b c) x) /\ convex_ccw [o; p; b; q].
Proof.
  intros H0 H1 H3 D1 D2 D3 P1 P2 Q1 Q2 M1 M2 v Iv. pose proof TH_pos as TP.
  assert (G := dart_exists o a b c ltac:(lra) ltac:(lra) ltac:(lra)). cbv zeta in G.
  set (W := - area2 c o a) in *. set (U := area2 o a b) in *. set (V := area2 b c o) in *.
  assert (S1 : area2 a b c = U + V + W).
  { unfold U, V, W. destruct a, b, c, o. unv. ring. }
  assert (F : forall x y, 0 < x -> 0 < y -> 0 <= x / (x + y) <= 1).
  { intros x y X Y. split; [apply Rmult_le_pos; [lra|left; apply Rinv_0_lt_compat; lra]|]. apply (Rmult_le_reg_r (x + y)); [lra|]. unfold Rdiv. rewrite Rmult_assoc, Rinv_l; lra. }
  assert (HW : 0 < W) by (unfold W; lra).
  set (p' := along a b (W / (W + V))) in *. set (q' := along b c (U / (U + W))) in *.
  assert (Ep : p = p').
  { apply (line_unique a b o c); [|exact P1|exact P2|unfold p'; now eexists|].
    - replace (cross (vsub b a) (vsub c o)) with (W + V) by (unfold W, V; destruct a, b, c, o; unv; ring). lra.
    - destruct G. exists (- / ((W + V) / U)). etransitivity; [exact dc_p|]. apply (base_along _ _ _ _ _ _ _ _ _ dc_c); field; lra. }
  assert (Eq : q = q').
  { apply (line_unique b c o a); [|exact Q1|exact Q2|unfold q'; now eexists|].
    - replace (cross (vsub c b) (vsub a o)) with (W + U) by (unfold W, U; destruct a, b, c, o; unv; ring). lra.
    - destruct G. exists (- / ((U + W) / V)). etransitivity; [exact dc_q|]. apply (base_along _ _ _ _ _ _ _ _ _ dc_a); field; lra. }
  rewrite Ep, Eq in *. clear P1 P2 Q1 Q2. clear Ep Eq p q.
  assert (Dp : dist c p' <= 150) by (apply dist_mix; [apply F; lra|exact D3|rewrite dist_sym; exact D2]).
  assert (Dq : dist a q' <= 150) by (apply dist_mix; [apply F; lra|exact D1|rewrite dist_sym; exact D3]).
  assert (A2 : TH < area2 a b c).
  { rewrite S1. lra. }
  split; [|split; [|split]].
  - unfold compute_kernel. rewrite (dart_not_convex o a b c v) by assumption. cbn [bind].
    apply (dart_code o a b c p' q' _ _ _ _ G D1 D2 Dp Dq); assumption.
  - assert (E := dart_encloses _ _ _ _ _ _ _ _ _ _ G). destruct Iv as [<-|[<-|[<-|[<-|[]]]]].
    + exact E.
    + apply (enc_turn o [a; b; c] _ E).
    + apply (enc_turn a [b; c; o]), (enc_turn o [a; b; c] _ E).
    + apply (enc_turn b [c; o; a]), (enc_turn a [b; c; o]), (enc_turn o [a; b; c] _ E).
  - intros x. rewrite (left_kernel _ _ _ _ _ _ _ _ _ _ G), (dart_kernel _ _ _ _ _ _ _ _ _ _ G), (left_dart _ _ _ _ _ _ _ _ _ _ G). reflexivity.
  - intros u w E r R0. revert u w E. change (left_of_all [o; p'; b; q'] r). apply (left_kernel _ _ _ _ _ _ _ _ _ _ G).
    pose proof (dc_m _ _ _ _ _ _ _ _ _ _ G). pose proof (dc_n _ _ _ _ _ _ _ _ _ _ G). pose proof (dc_A _ _ _ _ _ _ _ _ _ _ G). pose proof (dc_C _ _ _ _ _ _ _ _ _ _ G).
    pose proof (dc_mC _ _ _ _ _ _ _ _ _ _ G). pose proof (dc_nA _ _ _ _ _ _ _ _ _ _ G).
    destruct R0 as [<-|[<-|[<-|[<-|[]]]]].
    + replace (kk o p' q' ((U + W) / V) ((W + V) / U) o) with (kk o p' q' ((U + W) / V) ((W + V) / U) (bary o (vsub p' o) (vsub q' o) 0 0)) by (f_equal; symmetry; apply (dc_o _ _ _ _ _ _ _ _ _ _ G)).
      unfold kk, eab, ebc. rewrite (cs_bary _ _ _ _ _ _ _ _ _ _ G), (ct_bary _ _ _ _ _ _ _ _ _ _ G). lra.
    + replace (kk o p' q' ((U + W) / V) ((W + V) / U) p') with (kk o p' q' ((U + W) / V) ((W + V) / U) (bary o (vsub p' o) (vsub q' o) 1 0)) by (f_equal; symmetry; apply (dc_p _ _ _ _ _ _ _ _ _ _ G)).
      unfold kk, eab, ebc. rewrite (cs_bary _ _ _ _ _ _ _ _ _ _ G), (ct_bary _ _ _ _ _ _ _ _ _ _ G). lra.
    + replace (kk o p' q' ((U + W) / V) ((W + V) / U) b) with (kk o p' q' ((U + W) / V) ((W + V) / U) (bary o (vsub p' o) (vsub q' o) ((W + V) / W) ((U + W) / W))) by (f_equal; symmetry; apply (dc_b _ _ _ _ _ _ _ _ _ _ G)).
      unfold kk, eab, ebc. rewrite (cs_bary _ _ _ _ _ _ _ _ _ _ G), (ct_bary _ _ _ _ _ _ _ _ _ _ G). lra.
    + replace (kk o p' q' ((U + W) / V) ((W + V) / U) q') with (kk o p' q' ((U + W) / V) ((W + V) / U) (bary o (vsub p' o) (vsub q' o) 0 1)) by (f_equal; symmetry; apply (dc_q _ _ _ _ _ _ _ _ _ _ G)).
      unfold kk, eab, ebc. rewrite (cs_bary _ _ _ _ _ _ _ _ _ _ G), (ct_bary _ _ _ _ _ _ _ _ _ _ G). lra.
Qed.
