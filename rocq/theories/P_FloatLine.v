(** Properties C116 and C117: get_intersection and is_between of utils/cg.py in binary64 arithmetic. *)
From Coq Require Import ZArith QArith Qreals Reals SpecFloat Bool Lia Lra List.
From Verif Require Import Num Spec L_Geom M_Cg L_Cg M_Float S_Float L_Float L_FloatCmp L_FloatDiv L_FloatCg L_FloatGrid L_FloatLine L_FloatNorm W_PolTriangles P_Float P_Cg.
Import ListNotations.
Local Open Scope R_scope.
Notation sq := b64_sqrt.

(** with real numbers the definitions used here are those of M_Cg *)
Lemma between_num_R a b c : between_num sqrt a b c = is_between a b c.
Proof.
  unfold between_num, isclose_num, is_between, np_isclose, norm_num, np_norm. cbn [nsub nadd nmul nabs nleb nlit NumR]. unfold psub. cbn [fst snd nsub NumR].
  replace (Q2R (1 # 10000000)) with (1 / 10000000) by (unfold Q2R; cbn; lra). replace (Q2R (1 # 100000000)) with (1 / 100000000) by (unfold Q2R; cbn; lra). reflexivity.
Qed.
Lemma get_intersection_num_R a1 a2 b1 b2 : get_intersection_num sqrt a1 a2 b1 b2 = get_intersection a1 a2 b1 b2.
Proof. unfold get_intersection_num, get_intersection. rewrite !between_num_R. reflexivity. Qed.

(** *** C117 *)
Lemma rt_run : @nlit b64 NumB (1 # 10000000) = S754_finite false 7555786372591432 (-76). Proof. vm_compute. reflexivity. Qed.
Lemma at_run : @nlit b64 NumB (1 # 100000000) = S754_finite false 6044629098073146 (-79). Proof. vm_compute. reflexivity. Qed.
Lemma rt_near : Rabs (bval (@nlit b64 NumB (1 # 10000000)) - 1 / 10000000) <= 1 / 100000000000000000000.
Proof. rewrite rt_run. cbn [bval]. change (-76)%Z with (- (76))%Z. rewrite p2_inv, p2_Z by lia. change (2 ^ 76)%Z with 75557863725914323419136%Z. apply Rabs_le. lra. Qed.
Lemma at_near : Rabs (bval (@nlit b64 NumB (1 # 100000000)) - 1 / 100000000) <= 1 / 100000000000000000000.
Proof. rewrite at_run. cbn [bval]. change (-79)%Z with (- (79))%Z. rewrite p2_inv, p2_Z by lia. change (2 ^ 79)%Z with 604462909807314587353088%Z. apply Rabs_le. lra. Qed.
Lemma tiny : 0 < p2 (-299) <= 1 / 1000000000000000000000000000000 /\ 0 < p2 (-1075) <= p2 (-299).
Proof.
  split; [|split; [apply p2_pos|apply p2_le; lia]]. split; [apply p2_pos|]. apply Rle_trans with (p2 (-100)); [apply p2_le; lia|]. change (-100)%Z with (- (100))%Z. rewrite p2_inv, p2_Z by lia. change (2 ^ 100)%Z with 1267650600228229401496703205376%Z. lra.
Qed.
Lemma abs_split x X e : Rabs (x - X) <= e -> X - e <= x <= X + e.
Proof. intros H. pose proof (Rle_abs (x - X)). pose proof (Rle_abs (- (x - X))). rewrite Rabs_Ropp in *. lra. Qed.
Lemma dist_sym' p q : dist p q = dist q p.
Proof. unfold dist, norm, norm2, dot, vsub. cbn [fst snd]. f_equal. ring. Qed.
Lemma between_core a b c : bfin_pt a -> bfin_pt b -> bfin_pt c -> within (p2 400) a -> within (p2 400) b -> within (p2 400) c ->
  let s := dist (bpt a) (bpt b) + dist (bpt b) (bpt c) - dist (bpt a) (bpt c) in let B := btw_eps (dist (bpt a) (bpt c)) in
  (between_num sq a b c = true -> s <= 1.000001 * B) /\ (s <= 0.999999 * B -> between_num sq a b c = true).
Proof.
  intros Fa Fb Fc Wa Wb Wc. destruct (norm_near a b Fa Fb Wa Wb) as (G1 & E1 & P1 & Q1), (norm_near c b Fc Fb Wc Wb) as (G2 & E2 & P2 & Q2), (norm_near a c Fa Fc Wa Wc) as (G3 & E3 & P3 & Q3).
  rewrite (dist_sym' (bpt c) (bpt b)) in E2, P2, Q2. assert (TR : dist (bpt a) (bpt c) <= dist (bpt a) (bpt b) + dist (bpt b) (bpt c)) by apply dist_triangle.
  match type of G1 with bfin ?n => set (n1 := n) in * end. match type of G2 with bfin ?n => set (n2 := n) in * end. match type of G3 with bfin ?n => set (n3 := n) in * end.
  assert (EB : between_num sq a b c = SFleb (SFabs (SFsub 53 1024 (SFadd 53 1024 n1 n2) n3)) (SFadd 53 1024 (nlit (1 # 100000000)) (SFmul 53 1024 (nlit (1 # 10000000)) (SFabs n3)))) by reflexivity. rewrite EB. clear EB.
  set (N1 := dist (bpt a) (bpt b)) in *. set (N2 := dist (bpt b) (bpt c)) in *. set (N3 := dist (bpt a) (bpt c)) in *. clearbody N1 N2 N3 n1 n2 n3.
  destruct tiny as ((T0 & T1) & T2 & T3). pose proof u_small as (U0 & U1). pose proof rt_near as RT. pose proof at_near as AT. pose proof rt_run as RR. pose proof at_run as AR.
  set (rt := nlit (1 # 10000000)) in *. set (at_ := nlit (1 # 100000000)) in *. assert (Fr : bfin rt) by (rewrite RR; reflexivity). assert (Ft : bfin at_) by (rewrite AR; reflexivity). clearbody rt at_.
  assert (L : 100 * p2 402 <= p2 900). { apply Rle_trans with (p2 7 * p2 402); [apply Rmult_le_compat_r; [apply Rlt_le, p2_pos|rewrite p2_Z by lia; simpl; lra]|rewrite <- p2_add; apply p2_le; lia]. } assert (L1 : 1 <= p2 402) by (rewrite <- p2_0; apply p2_le; lia).
  assert (UN : forall x, 0 <= x -> 0 <= u * x <= 1 / 1000000000000000 * x) by (intros x Hx; split; [apply Rmult_le_pos; lra|apply Rmult_le_compat_r; lra]).
  destruct (UN N1 P1) as (V1 & V1'), (UN N2 P2) as (V2 & V2'), (UN N3 P3) as (V3 & V3').
  apply abs_split in E1, E2, E3, RT, AT.
  assert (B12 : Rabs (bval n1 + bval n2) <= 1.001 * (N1 + N2) + 2 * p2 (-299)) by (apply Rabs_le; lra).
  destruct (add_near n1 n2 G1 G2) as (F12 & E12 & _); [lra|]. set (n12 := SFadd 53 1024 n1 n2) in *. assert (u * Rabs (bval n1 + bval n2) <= u * (1.001 * (N1 + N2) + 2 * p2 (-299))) by (apply Rmult_le_compat_l; lra).
  pose proof (UN (p2 (-299)) ltac:(lra)) as (V4 & V4'). apply abs_split in E12.
  assert (E12' : (N1 + N2) - (8.01 * u * (N1 + N2) + 4 * p2 (-299)) <= bval n12 <= (N1 + N2) + (8.01 * u * (N1 + N2) + 4 * p2 (-299))) by lra. clear E12.
  assert (BD : Rabs (bval n12 - bval n3) <= 1.1 * (N1 + N2) + 6 * p2 (-299)) by (apply Rabs_le; lra).
  destruct (sub_near n12 n3 F12 G3) as (FD & ED & _); [lra|]. set (d := SFsub 53 1024 n12 n3) in *. assert (u * Rabs (bval n12 - bval n3) <= u * (1.1 * (N1 + N2) + 6 * p2 (-299))) by (apply Rmult_le_compat_l; lra). apply abs_split in ED.
  assert (V5 : u * N3 <= u * (N1 + N2)) by (apply Rmult_le_compat_l; lra).
  assert (ED' : (N1 + N2 - N3) - (17 * u * (N1 + N2) + 10 * p2 (-299)) <= bval d <= (N1 + N2 - N3) + (17 * u * (N1 + N2) + 10 * p2 (-299))) by lra. clear ED.
  destruct (abs_spec n3 G3) as (FA3 & VA3). assert (EA : Rabs (bval n3) <= N3 + (7 * u * N3 + p2 (-299)) /\ N3 - (7 * u * N3 + p2 (-299)) <= Rabs (bval n3)) by (split; [apply Rabs_le; lra|pose proof (Rle_abs (bval n3)); lra]). destruct EA as (EA1 & EA2).
  pose proof (Rabs_pos (bval n3)) as A0. set (m := Rabs (bval n3)) in *.
  assert (M3 : 1 / 10000000 * N3 - 1 / 1000000000000000 * N3 - p2 (-299) <= bval rt * m <= 1 / 10000000 * N3 + 1 / 1000000000000000 * N3 + p2 (-299)).
  { assert (m * (1 / 10000000 - 1 / 100000000000000000000) <= m * bval rt) by (apply Rmult_le_compat_l; lra). assert (m * bval rt <= m * (1 / 10000000 + 1 / 100000000000000000000)) by (apply Rmult_le_compat_l; lra). split; lra. }
  destruct (mul_near rt (SFabs n3) Fr FA3) as (FM & EM & _); [rewrite VA3; apply Rabs_le; lra|]. rewrite VA3 in EM. set (pr := SFmul 53 1024 rt (SFabs n3)) in *.
  assert (u * Rabs (bval rt * m) <= u * (0.1 * N3 + p2 (-299))) by (apply Rmult_le_compat_l; [lra|apply Rabs_le; lra]). apply abs_split in EM.
  assert (EM' : 1 / 10000000 * N3 - 2 / 1000000000000000 * N3 - 3 * p2 (-299) <= bval pr <= 1 / 10000000 * N3 + 2 / 1000000000000000 * N3 + 3 * p2 (-299)) by lra. clear EM.
  destruct (add_near at_ pr Ft FM) as (FS & ES & _); [apply Rabs_le; lra|]. set (rh := SFadd 53 1024 at_ pr) in *.
  assert (u * Rabs (bval at_ + bval pr) <= u * (0.001 + 0.001 * N3 + p2 (-299))) by (apply Rmult_le_compat_l; [lra|apply Rabs_le; lra]). apply abs_split in ES.
  unfold btw_eps. destruct (abs_spec d FD) as (FAD & VAD). rewrite leb_spec; [|exact FAD|exact FS]. rewrite VAD. unfold Rleb.
  assert (u * 1 <= 1 / 1000000000000000 * 1) by lra.
  assert (ES' : 0.9999999 * (1 / 100000000 + 1 / 10000000 * N3) <= bval rh <= 1.0000001 * (1 / 100000000 + 1 / 10000000 * N3)) by lra. clear ES.
  split.
  - destruct (Rle_dec _ _) as [Q|Q]; [|discriminate]. intros _. pose proof (Rle_abs (bval d)). assert (u * (N1 + N2) <= 1 / 1000000000000000 * (N1 + N2)) by (apply UN; lra). lra.
  - intros Q. destruct (Rle_dec _ _) as [|Q']; [reflexivity|]. destruct Q'. assert (u * (N1 + N2) <= 1 / 1000000000000000 * (N1 + N2)) by (apply UN; lra). apply Rabs_le. lra.
Qed.
(** the sum of the two distances exceeds the length of the segment by at most 1e-8 + 1e-7 times the length, within one part in a million of that *)
Theorem C117_between : forall a b c, bfin_pt a -> bfin_pt b -> bfin_pt c -> within (2 ^ 400) a -> within (2 ^ 400) b -> within (2 ^ 400) c ->
  let excess := dist (bpt a) (bpt b) + dist (bpt b) (bpt c) - dist (bpt a) (bpt c) in let slack := btw_eps (dist (bpt a) (bpt c)) in
  (between_num sq a b c = true -> excess <= 1.000001 * slack) /\ (excess <= 0.999999 * slack -> between_num sq a b c = true).
Proof.
  intros a b c Fa Fb Fc Wa Wb Wc. assert (E : 2 ^ 400 = p2 400) by reflexivity. rewrite E in *. apply between_core; auto.
Qed.
Print Assumptions C117_between.
(** a point of the segment is always reported, whatever the size of the coordinates *)
Theorem C117_on_segment : forall a b c, bfin_pt a -> bfin_pt b -> bfin_pt c -> within (2 ^ 400) a -> within (2 ^ 400) b -> within (2 ^ 400) c ->
  on_seg (bpt a) (bpt c) (bpt b) -> between_num sq a b c = true.
Proof.
  intros a b c Fa Fb Fc Wa Wb Wc H. destruct (C117_between a b c Fa Fb Fc Wa Wb Wc) as (_ & Q). apply Q. rewrite (seg_additive _ _ _ H). unfold btw_eps. pose proof (sqrt_pos (norm2 (vsub (bpt a) (bpt c)))) as P. change (0 <= dist (bpt a) (bpt c)) in P. lra.
Qed.
Print Assumptions C117_on_segment.
Definition b0 : b64 := S754_zero false.
Definition big1 : b64 := S754_finite false 4503599627370496 200.
Definition big2 : b64 := S754_finite false 4503599627370496 201.
(** coordinates of 2^252 and a point half-way; a point off the segment by one part in a thousand is not reported *)
Example C117_example : let a := (b0, b0) in let b := (big1, big1) in let c := (big2, big2) in let d := (f01, b0) in
  bfin_pt a /\ bfin_pt b /\ bfin_pt c /\ within (2 ^ 400) a /\ within (2 ^ 400) b /\ within (2 ^ 400) c /\ on_seg (bpt a) (bpt c) (bpt b) /\
  between_num sq a b c = true /\ between_num sq b a c = false /\ between_num sq a (f01, f02) (f02, f02) = false.
Proof.
  intros a b c d. split; [split; exact I|]. split; [split; reflexivity|]. split; [split; reflexivity|].
  assert (Z : Rabs (bval b0) <= 2 ^ 400). { cbn [b0 bval]. rewrite Rabs_R0. apply pow_le. lra. }
  assert (B : forall e, (0 <= e <= 300)%Z -> Rabs (bval (S754_finite false 4503599627370496 e)) <= 2 ^ 400).
  { intros e He. change (2 ^ 400) with (p2 400). cbn [bval]. rewrite Rabs_pos_eq by (apply Rmult_le_pos; [lra|apply Rlt_le, p2_pos]). apply Rle_trans with (p2 53 * p2 e); [apply Rmult_le_compat_r; [apply Rlt_le, p2_pos|rewrite p2_Z by lia; simpl; lra]|rewrite <- p2_add; apply p2_le; lia]. }
  split; [split; exact Z|]. split; [split; apply B; lia|]. split; [split; apply B; lia|]. split.
  { exists (1 / 2). split; [lra|]. unfold along, vadd, smul, vsub, bpt. cbn [a b c fst snd]. assert (E : bval big1 = 1 / 2 * bval big2). { cbn [big1 big2 bval]. change 201%Z with (200 + 1)%Z. rewrite p2_add. change (p2 1) with (2 * 1). lra. }
    rewrite E. cbn [b0 bval]. apply pair_eq; ring. }
  vm_compute. auto.
Qed.

(** *** C116 *)
Section Cross.
  Variables a1 a2 b1 b2 : pt b64.
  Notation A1 := (bpt a1). Notation A2 := (bpt a2). Notation B1 := (bpt b1). Notation B2 := (bpt b2).
  Hypothesis Fa1 : bfin_pt a1. Hypothesis Fa2 : bfin_pt a2. Hypothesis Fb1 : bfin_pt b1. Hypothesis Fb2 : bfin_pt b2.
  Lemma den_areas : cross (vsub A2 A1) (vsub B2 B1) = area2 A1 A2 B2 - area2 A1 A2 B1.
  Proof. unfold area2, cross, vsub. cbn [fst snd]. ring. Qed.
  Lemma on_both s t d : d <> 0 -> cross (vsub A2 A1) (vsub B2 B1) = d -> t * d = - area2 A1 A2 B1 -> s * d = cross (vsub B1 A1) (vsub B2 B1) -> along A1 A2 s = along B1 B2 t.
  Proof.
    intros D0 ED Et Es. unfold along, vadd, smul, vsub. cbn [fst snd].
    apply pair_eq; apply Rmult_eq_reg_r with d; auto; rewrite !Rmult_plus_distr_r.
    - replace (s * (fst A2 - fst A1) * d) with ((s * d) * (fst A2 - fst A1)) by ring. replace (t * (fst B2 - fst B1) * d) with ((t * d) * (fst B2 - fst B1)) by ring. rewrite Es, Et, <- ED. unfold area2, cross, vsub. cbn [fst snd]. ring.
    - replace (s * (snd A2 - snd A1) * d) with ((s * d) * (snd A2 - snd A1)) by ring. replace (t * (snd B2 - snd B1) * d) with ((t * d) * (snd B2 - snd B1)) by ring. rewrite Es, Et, <- ED. unfold area2, cross, vsub. cbn [fst snd]. ring.
  Qed.
  Hypothesis Wa1 : within 160 a1. Hypothesis Wa2 : within 160 a2. Hypothesis Wb1 : within 160 b1. Hypothesis Wb2 : within 160 b2.
  Lemma t_range t : intersect a1 a2 b1 b2 = true -> 4 * TH <= Rabs (cross (vsub A2 A1) (vsub B2 B1)) -> t * cross (vsub A2 A1) (vsub B2 B1) = - area2 A1 A2 B1 -> Rabs t <= 1.5.
  Proof.
    rewrite den_areas. intros H D E. unfold intersect in H. apply andb_prop in H as (_ & H). destruct (C112_turn_tests a1 a2 b1) as (P1 & _ & _ & P2 & _); auto. destruct (C112_turn_tests a1 a2 b2) as (Q1 & _ & _ & Q2 & _); auto.
    set (X := area2 A1 A2 B1) in *. set (Y := area2 A1 A2 B2) in *. pose proof TH_pos. destruct (is_ccw a1 a2 b1) eqn:C1, (is_ccw a1 a2 b2) eqn:C2; try discriminate.
    - assert (X0 : 0 < X) by auto. assert (Y0 : Y < 2 * TH) by (apply Rnot_le_lt; intros C; specialize (Q2 C); discriminate). unfold Rabs in D. destruct (Rcase_abs (Y - X)); [|lra]. apply Rabs_le. split; nra.
    - assert (Y0 : 0 < Y) by auto. assert (X0 : X < 2 * TH) by (apply Rnot_le_lt; intros C; specialize (P2 C); discriminate). unfold Rabs in D. destruct (Rcase_abs (Y - X)); [lra|]. apply Rabs_le. split; nra.
  Qed.
  Lemma ccw_iff a b c : bfin_pt a -> bfin_pt b -> bfin_pt c -> within 160 a -> within 160 b -> within 160 c -> 2 * TH <= Rabs (area2 (bpt a) (bpt b) (bpt c)) ->
    (is_ccw a b c = true /\ 2 * TH <= area2 (bpt a) (bpt b) (bpt c)) \/ (is_ccw a b c = false /\ area2 (bpt a) (bpt b) (bpt c) <= - 2 * TH).
  Proof.
    intros Fa Fb Fc Wa Wb Wc H. destruct (C112_turn_tests a b c) as (P1 & _ & _ & P2 & _); auto. pose proof TH_pos. unfold Rabs in H. destruct (Rcase_abs _) as [L|L] in H.
    - right. split; [|lra]. destruct (is_ccw a b c); auto. specialize (P1 eq_refl). lra.
    - left. split; [apply P2|]; lra.
  Qed.
End Cross.
(** when the crossing test succeeds and the directions are not nearly parallel, the point returned is near the crossing of the two lines *)
Theorem C116_crossing : forall M a1 a2 b1 b2, 1 <= M <= 160 -> bfin_pt a1 -> bfin_pt a2 -> bfin_pt b1 -> bfin_pt b2 ->
  within M a1 -> within M a2 -> within M b1 -> within M b2 ->
  let D := Rabs (cross (vsub (bpt a2) (bpt a1)) (vsub (bpt b2) (bpt b1))) in 4 * TH <= D -> intersect a1 a2 b1 b2 = true ->
  exists x p, get_intersection_num sq a1 a2 b1 b2 = Some x /\ bfin_pt x /\ on_line (bpt a1) (bpt a2) p /\ on_line (bpt b1) (bpt b2) p /\
    Rabs (bval (fst x) - fst p) <= 400 * M ^ 3 / (2 ^ 53 * D) /\ Rabs (bval (snd x) - snd p) <= 400 * M ^ 3 / (2 ^ 53 * D).
Proof.
  intros M a1 a2 b1 b2 (M1 & M2) Fa1 Fa2 Fb1 Fb2 Wa1 Wa2 Wb1 Wb2 D HD HI. assert (W160 : forall p, within M p -> within 160 p) by (intros p (H1 & H2); split; lra).
  set (d := cross (vsub (bpt a2) (bpt a1)) (vsub (bpt b2) (bpt b1))) in *. pose proof TH_pos as T. assert (D0 : 0 < D) by lra. assert (d0 : d <> 0). { intros Z. unfold D in D0. rewrite Z, Rabs_R0 in D0. lra. }
  set (t := - area2 (bpt a1) (bpt a2) (bpt b1) / d). assert (Et : t * d = - area2 (bpt a1) (bpt a2) (bpt b1)) by (unfold t; field; auto).
  assert (Ht : Rabs t <= 1.5) by (apply (t_range a1 a2 b1 b2); auto). clearbody t. set (s := cross (vsub (bpt b1) (bpt a1)) (vsub (bpt b2) (bpt b1)) / d). assert (Es : s * d = cross (vsub (bpt b1) (bpt a1)) (vsub (bpt b2) (bpt b1))) by (unfold s; field; auto). clearbody s.
  destruct (crossing_near M M1 M2 a1 a2 b1 b2 Fa1 Fa2 Fb1 Fb2 Wa1 Wa2 Wb1 Wb2 HD t Ht Et) as (F & E1 & E2).
  exists (crossing_point a1 a2 b1 b2), (along (bpt b1) (bpt b2) t). split; [unfold get_intersection_num; rewrite HI; reflexivity|]. split; [exact F|]. split; [exists s; symmetry; apply (on_both a1 a2 b1 b2 s t d); auto|]. split; [exists t; reflexivity|].
  assert (EB : 400 * M ^ 3 / (2 ^ 53 * D) = 400 * (M * W M a1 a2 b1 b2)).
  { unfold W. change (den a1 a2 b1 b2) with d. fold D. change u with (/ 2 ^ 53). assert (D <> 0) by lra. field. auto. }
  rewrite EB. split; assumption.
Qed.
Print Assumptions C116_crossing.
(** when no end is nearly on the line through the other segment, the test is right *)
Theorem C116_test : forall a1 a2 b1 b2, bfin_pt a1 -> bfin_pt a2 -> bfin_pt b1 -> bfin_pt b2 -> within 160 a1 -> within 160 a2 -> within 160 b1 -> within 160 b2 ->
  2 * TH <= Rabs (area2 (bpt a1) (bpt b1) (bpt b2)) -> 2 * TH <= Rabs (area2 (bpt a2) (bpt b1) (bpt b2)) -> 2 * TH <= Rabs (area2 (bpt a1) (bpt a2) (bpt b1)) -> 2 * TH <= Rabs (area2 (bpt a1) (bpt a2) (bpt b2)) ->
  (intersect a1 a2 b1 b2 = true <-> exists p, on_seg (bpt a1) (bpt a2) p /\ on_seg (bpt b1) (bpt b2) p) /\
  (intersect a1 a2 b1 b2 = true -> 4 * TH <= Rabs (cross (vsub (bpt a2) (bpt a1)) (vsub (bpt b2) (bpt b1)))).
Proof.
  intros a1 a2 b1 b2 Fa1 Fa2 Fb1 Fb2 Wa1 Wa2 Wb1 Wb2 H1 H2 H3 H4. pose proof TH_pos as T.
  pose proof (ccw_iff a1 b1 b2 Fa1 Fb1 Fb2 Wa1 Wb1 Wb2 H1) as G1. pose proof (ccw_iff a2 b1 b2 Fa2 Fb1 Fb2 Wa2 Wb1 Wb2 H2) as G2. pose proof (ccw_iff a1 a2 b1 Fa1 Fa2 Fb1 Wa1 Wa2 Wb1 H3) as G3. pose proof (ccw_iff a1 a2 b2 Fa1 Fa2 Fb2 Wa1 Wa2 Wb2 H4) as G4.
  assert (HC : intersect a1 a2 b1 b2 = true <-> properly_cross (bpt a1) (bpt a2) (bpt b1) (bpt b2)).
  { unfold intersect, properly_cross, opposite. destruct G1 as [(-> & ?)|(-> & ?)], G2 as [(-> & ?)|(-> & ?)], G3 as [(-> & ?)|(-> & ?)], G4 as [(-> & ?)|(-> & ?)]; cbn [xorb andb]; split; intros Q; try discriminate; try reflexivity; try (exfalso; lra); split; lra. }
  split.
  - rewrite HC. split.
    + intros Q. destruct (get_intersection_proper _ _ _ _ Q) as (p & _ & P1 & P2 & _). exists p. auto.
    + intros (p & P1 & P2). destruct P1 as (s & S1 & ->), P2 as (t & T1 & E).
      assert (X1 : (1 - s) * area2 (bpt a1) (bpt b1) (bpt b2) + s * area2 (bpt a2) (bpt b1) (bpt b2) = 0).
      { replace (_ + _) with (area2 (along (bpt a1) (bpt a2) s) (bpt b1) (bpt b2)) by (unfold area2, along, cross, vsub, vadd, smul; cbn [fst snd]; ring). rewrite E. unfold area2, along, cross, vsub, vadd, smul; cbn [fst snd]; ring. }
      assert (X2 : (1 - t) * area2 (bpt a1) (bpt a2) (bpt b1) + t * area2 (bpt a1) (bpt a2) (bpt b2) = 0).
      { replace (_ + _) with (area2 (bpt a1) (bpt a2) (along (bpt b1) (bpt b2) t)) by (unfold area2, along, cross, vsub, vadd, smul; cbn [fst snd]; ring). rewrite <- E. unfold area2, along, cross, vsub, vadd, smul; cbn [fst snd]; ring. }
      assert (L : forall x y r, 0 <= r <= 1 -> 2 * TH <= Rabs x -> 2 * TH <= Rabs y -> (1 - r) * x + r * y = 0 -> opposite x y).
      { intros x y r Hr Hx Hy He. unfold opposite. unfold Rabs in Hx, Hy. destruct (Rcase_abs x), (Rcase_abs y); [exfalso|right; lra|left; lra|exfalso]; nra. }
      split; [apply (L _ _ s)|apply (L _ _ t)]; auto.
  - intros Q. apply HC in Q as (_ & Q). rewrite den_areas. destruct G3 as [(_ & ?)|(_ & ?)], G4 as [(_ & ?)|(_ & ?)]; unfold opposite in Q; try (exfalso; lra); unfold Rabs; destruct (Rcase_abs _); lra.
Qed.
Print Assumptions C116_test.
(** an end that lies on the other segment is found, whatever the size of the coordinates; an end that is returned without a crossing is close to the other segment *)
Theorem C116_ends : forall a1 a2 b1 b2, bfin_pt a1 -> bfin_pt a2 -> bfin_pt b1 -> bfin_pt b2 -> within (2 ^ 400) a1 -> within (2 ^ 400) a2 -> within (2 ^ 400) b1 -> within (2 ^ 400) b2 ->
  (on_seg (bpt b1) (bpt b2) (bpt a1) \/ on_seg (bpt b1) (bpt b2) (bpt a2) \/ on_seg (bpt a1) (bpt a2) (bpt b1) \/ on_seg (bpt a1) (bpt a2) (bpt b2) -> get_intersection_num sq a1 a2 b1 b2 <> None) /\
  (forall x, intersect a1 a2 b1 b2 = false -> get_intersection_num sq a1 a2 b1 b2 = Some x ->
    let close c d y := dist (bpt c) (bpt y) + dist (bpt y) (bpt d) <= dist (bpt c) (bpt d) + 1.000001 * btw_eps (dist (bpt c) (bpt d)) in
    ((x = a1 \/ x = a2) /\ close b1 b2 x) \/ ((x = b1 \/ x = b2) /\ close a1 a2 x)).
Proof.
  intros a1 a2 b1 b2 Fa1 Fa2 Fb1 Fb2 Wa1 Wa2 Wb1 Wb2. split.
  - unfold get_intersection_num. intros H. destruct (negb _); [|discriminate]. destruct (between_num sq b1 a1 b2) eqn:E1; [discriminate|]. destruct (between_num sq b1 a2 b2) eqn:E2; [discriminate|]. destruct (between_num sq a1 b1 a2) eqn:E3; [discriminate|]. destruct (between_num sq a1 b2 a2) eqn:E4; [discriminate|].
    exfalso. destruct H as [H|[H|[H|H]]]; apply C117_on_segment in H; auto; congruence.
  - intros x H Q close. assert (C : forall c d y, bfin_pt c -> bfin_pt d -> bfin_pt y -> within (2 ^ 400) c -> within (2 ^ 400) d -> within (2 ^ 400) y -> between_num sq c y d = true -> close c d y).
    { intros c d y Fc Fd Fy Wc Wd Wy B. destruct (C117_between c y d) as (B' & _); auto. specialize (B' B). unfold close. lra. }
    unfold get_intersection_num in Q. rewrite H in Q. cbn [negb] in Q. destruct (between_num sq b1 a1 b2) eqn:E1; [injection Q as <-; left; auto|]. destruct (between_num sq b1 a2 b2) eqn:E2; [injection Q as <-; left; auto|].
    destruct (between_num sq a1 b1 a2) eqn:E3; [injection Q as <-; right; auto|]. destruct (between_num sq a1 b2 a2) eqn:E4; [injection Q as <-; right; auto|discriminate].
Qed.
Print Assumptions C116_ends.
(** the denominator can vanish although the test succeeds: the answer is not a point *)
Definition fl (s : bool) (m : positive) (e : Z) : b64 := S754_finite s m e.
Definition na1 : pt b64 := (fl true 8725724282834175 (-55), fl true 7036874422570239 (-55)).
Definition na2 : pt b64 := (fl false 4785074599277313 (-55), fl true 5136918326170432 (-53)).
Definition nb1 : pt b64 := (fl false 4503599627370496 (-56), fl true 4503599627370496 (-53)).
Definition nb2 : pt b64 := (fl true 5629499534213120 (-54), fl true 4503599627370496 (-55)).
Theorem C116_not_finite_refuted : exists a1 a2 b1 b2 x, bfin_pt a1 /\ bfin_pt a2 /\ bfin_pt b1 /\ bfin_pt b2 /\ within 1 a1 /\ within 1 a2 /\ within 1 b1 /\ within 1 b2 /\
  intersect a1 a2 b1 b2 = true /\ get_intersection_num sq a1 a2 b1 b2 = Some x /\ ~ bfin (fst x) /\ ~ bfin (snd x).
Proof.
  exists na1, na2, nb1, nb2. assert (R1 : get_intersection_num sq na1 na2 nb1 nb2 = Some (crossing_point na1 na2 nb1 nb2)) by (vm_compute; reflexivity). exists (crossing_point na1 na2 nb1 nb2).
  assert (E1 : Q2R 1 = 1) by (unfold Q2R; cbn; lra). repeat (split; [apply fin_ptb_R; vm_compute; reflexivity|]). rewrite <- E1. repeat (split; [apply withinb_R; vm_compute; reflexivity|]).
  split; [vm_compute; reflexivity|]. split; [exact R1|]. split; vm_compute; auto.
Qed.
Print Assumptions C116_not_finite_refuted.
(** the segments from (0.1, 0.1) to (0.9, 0.7) and from (0.2, 0.7) to (0.7, 0.1) *)
Example C116_example : let a1 := (f01, f01) in let a2 := (f09, f07) in let b1 := (f02, f07) in let b2 := (f07, f01) in
  (forall p, In p [a1; a2; b1; b2] -> bfin_pt p /\ within 1 p) /\
  2 * TH <= Rabs (area2 (bpt a1) (bpt b1) (bpt b2)) /\ 2 * TH <= Rabs (area2 (bpt a2) (bpt b1) (bpt b2)) /\ 2 * TH <= Rabs (area2 (bpt a1) (bpt a2) (bpt b1)) /\ 2 * TH <= Rabs (area2 (bpt a1) (bpt a2) (bpt b2)) /\
  intersect a1 a2 b1 b2 = true /\ 4 * TH <= Rabs (cross (vsub (bpt a2) (bpt a1)) (vsub (bpt b2) (bpt b1))) /\
  get_intersection_num sq a1 a2 b1 b2 = Some (fl false 8452910069833854 (-54), fl false 6790042515112439 (-54)) /\
  on_seg (bpt a1) (bpt b2) (bpt a1) /\ get_intersection_num sq a1 a2 a1 b2 = Some a1.
Proof.
  intros a1 a2 b1 b2. assert (Q3 : Q2R 1 = 1) by (unfold Q2R; cbn; lra).
  assert (F : forall p, In p [a1; a2; b1; b2] -> bfin_pt p /\ within 1 p). { rewrite <- Q3. intros p Hp. repeat destruct Hp as [<-|Hp]; try (split; [apply fin_ptb_R; reflexivity|apply withinb_R; vm_compute; reflexivity]). destruct Hp. }
  assert (E2 : 2 * TH = Q2R (2 # 10000000000)) by (unfold TH, Q2R; cbn; lra).
  assert (A : forall a b c, Qle_bool (2 # 10000000000) (areaQ (bqp a) (bqp b) (bqp c)) || Qle_bool (2 # 10000000000) (- areaQ (bqp a) (bqp b) (bqp c)) = true -> 2 * TH <= Rabs (area2 (bpt a) (bpt b) (bpt c))).
  { intros a b c H. rewrite E2, !bqp_R, areaQ_R. apply orb_prop in H as [H|H]; apply Qle_bool_iff, Qle_Rle in H; apply Rle_trans with (1 := H); [apply Rle_abs|]. rewrite Q2R_opp, <- Rabs_Ropp. apply Rle_abs. }
  split; [exact F|]. assert (H1 : 2 * TH <= Rabs (area2 (bpt a1) (bpt b1) (bpt b2))) by (apply A; vm_compute; reflexivity). assert (H2 : 2 * TH <= Rabs (area2 (bpt a2) (bpt b1) (bpt b2))) by (apply A; vm_compute; reflexivity).
  assert (H3 : 2 * TH <= Rabs (area2 (bpt a1) (bpt a2) (bpt b1))) by (apply A; vm_compute; reflexivity). assert (H4 : 2 * TH <= Rabs (area2 (bpt a1) (bpt a2) (bpt b2))) by (apply A; vm_compute; reflexivity).
  assert (HI : intersect a1 a2 b1 b2 = true) by (vm_compute; reflexivity). do 5 (split; [assumption|]). split.
  { assert (W160 : forall p, within 1 p -> within 160 p) by (intros p (K1 & K2); split; lra). destruct (F a1) as (F1 & G1), (F a2) as (F2 & G2), (F b1) as (F3 & G3), (F b2) as (F4 & G4); cbn [In]; auto. apply C116_test; auto. }
  split; [vm_compute; reflexivity|]. split; [|vm_compute; reflexivity]. exists 0. split; [lra|]. unfold along, vadd, smul, vsub. cbn [fst snd]. unfold bpt. cbn [fst snd]. apply pair_eq; ring.
Qed.
