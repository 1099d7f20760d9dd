(** The region enclosed by a simple polygon: its boundary, its two sides, its connectedness. *)
From Coq Require Import Reals Lra Psatz List.
From Verif Require Import Num Spec S_PolHull L_Geom L_PolHull3.
Import ListNotations.
Open Scope R_scope.

(** ** Neighbourhoods *)
Definition nbhd (x : Pt) (P : Pt -> Prop) : Prop := exists r, 0 < r /\ forall y, dist x y < r -> P y.
Lemma nbhd_and x (P Q : Pt -> Prop) : nbhd x P -> nbhd x Q -> nbhd x (fun y => P y /\ Q y).
Proof.
  intros (r & Hr & HP) (s & Hs & HQ). exists (Rmin r s). split; [apply Rmin_glb_lt; auto|]. intros y Hy. split; [apply HP|apply HQ];
    (eapply Rlt_le_trans; [exact Hy|]); [apply Rmin_l|apply Rmin_r].
Qed.
Lemma nbhd_mono x (P Q : Pt -> Prop) : nbhd x P -> (forall y, P y -> Q y) -> nbhd x Q.
Proof. intros (r & Hr & HP) H. exists r. auto. Qed.
Lemma nbhd_at x P : nbhd x P -> P x.
Proof. intros (r & Hr & H). apply H. rewrite dist_refl. auto. Qed.
Lemma nbhd_true x (P : Pt -> Prop) : (forall y, P y) -> nbhd x P.
Proof. intros H. exists 1. split; [lra|auto]. Qed.
Lemma nbhd_forall x {B} (l : list B) (P : B -> Pt -> Prop) : (forall b, In b l -> nbhd x (P b)) -> nbhd x (fun y => forall b, In b l -> P b y).
Proof.
  induction l as [|b l IH]; intros H. { apply nbhd_true. intros y b []. }
  eapply nbhd_mono; [apply nbhd_and; [apply (H b); left; auto|apply IH; intros; apply H; right; auto]|]. cbn. intros y [H1 H2] b' [->|Hb]; auto.
Qed.
Lemma nbhd_lin x p q e : 0 < p * fst x + q * snd x + e -> nbhd x (fun y => 0 < p * fst y + q * snd y + e).
Proof.
  intros H. set (f := p * fst x + q * snd x + e) in *. set (c := Rabs p + Rabs q + 1). assert (Hc : 0 < c) by (unfold c; pose proof (Rabs_pos p); pose proof (Rabs_pos q); lra).
  exists (f / c). split; [apply Rdiv_lt_0_compat; auto|]. intros y Hy.
  pose proof (dist_ge_x x y) as Dx. pose proof (dist_ge_y x y) as Dy. assert (dist x y * c < f). { apply (Rmult_lt_compat_r c) in Hy; auto. unfold Rdiv in Hy. rewrite Rmult_assoc, Rinv_l in Hy; lra. }
  pose proof (dist_nonneg x y) as D0. unfold c, f in *.
  assert (p * (fst x - fst y) <= Rabs p * dist x y).
  { eapply Rle_trans; [apply Rle_abs|]. rewrite Rabs_mult. apply Rmult_le_compat_l; auto. apply Rabs_pos. }
  assert (q * (snd x - snd y) <= Rabs q * dist x y).
  { eapply Rle_trans; [apply Rle_abs|]. rewrite Rabs_mult. apply Rmult_le_compat_l; auto. apply Rabs_pos. }
  nra.
Qed.
Lemma nbhd_area x a b : 0 < area2 a b x -> nbhd x (fun y => 0 < area2 a b y).
Proof.
  intros H. eapply nbhd_mono; [apply (nbhd_lin x (- (snd b - snd a)) (fst b - fst a) ((snd b - snd a) * fst a - (fst b - fst a) * snd a))|].
  - unv. lra.
  - intros y Hy. cbv beta in Hy. unv. lra.
Qed.
Lemma nbhd_area_neg x a b : area2 a b x < 0 -> nbhd x (fun y => area2 a b y < 0).
Proof.
  intros H. eapply nbhd_mono; [apply (nbhd_area x b a)|]. { unv; lra. } intros y Hy. cbv beta in Hy. unv; lra.
Qed.
Lemma nbhd_line x d P : nbhd x P -> exists r, 0 < r /\ forall t, Rabs t < r -> P (vadd x (smul t d)).
Proof.
  intros (r & Hr & H). exists (r / (norm d + 1)). pose proof (norm_nonneg d) as N. split; [apply Rdiv_lt_0_compat; lra|].
  intros t Ht. apply H. replace (dist x (vadd x (smul t d))) with (Rabs t * norm d).
  - apply (Rmult_lt_compat_r (norm d + 1)) in Ht; [|lra]. unfold Rdiv in Ht. rewrite Rmult_assoc, Rinv_l in Ht by lra. pose proof (Rabs_pos t). nra.
  - unfold dist. replace (vsub x (vadd x (smul t d))) with (smul (- t) d) by (unv; apply pair_eq; ring). rewrite norm_smul, Rabs_Ropp. auto.
Qed.
Lemma nbhd_seg x P : nbhd x P -> forall y, exists r, 0 < r /\ r <= 1 /\ forall t, 0 <= t <= r -> P (along x y t).
Proof.
  intros H y. destruct (nbhd_line x (vsub y x) P H) as (r & Hr & B). exists (Rmin (r / 2) 1). split; [apply Rmin_glb_lt; lra|]. split; [apply Rmin_r|].
  intros t Ht. apply B. assert (t <= r / 2) by (eapply Rle_trans; [apply Ht|apply Rmin_l]). rewrite Rabs_right; lra.
Qed.
Lemma nbhd_convex x P : nbhd x P -> exists Q, nbhd x Q /\ (forall y, Q y -> P y) /\ convex Q.
Proof.
  intros (r & Hr & H). exists (fun y => dist x y < r). split; [exists r; auto|]. split; auto.
  intros p q z Hp Hq (t & Ht & ->). unfold dist in *. replace (vsub x (along p q t)) with (vadd (smul (1 - t) (vsub x p)) (smul t (vsub x q))) by (unv; apply pair_eq; ring).
  eapply Rle_lt_trans; [apply norm_triangle|]. rewrite !norm_smul, !Rabs_right by lra.
  set (a := norm (vsub x p)) in *. set (b := norm (vsub x q)) in *. destruct (Req_dec t 0) as [->|]; [lra|]. destruct (Req_dec t 1) as [->|]; [lra|]. nra.
Qed.

(** ** Segments *)
Lemma area_on_seg a b x : on_seg a b x -> area2 a b x = 0.
Proof. intros (t & Ht & ->). unv. ring. Qed.
(** an affine function that is non-negative at both ends *)
Lemma seg_ends a b x p q : on_seg a b x -> 0 <= area2 p q a -> 0 <= area2 p q b -> 0 <= area2 p q x.
Proof. intros (t & Ht & ->) Ha Hb. replace (area2 p q (along a b t)) with ((1 - t) * area2 p q a + t * area2 p q b) by (unv; ring). nra. Qed.
Lemma tri_side a b c x : 0 < area2 a b c -> area2 a b x = 0 -> 0 <= area2 b c x -> 0 <= area2 c a x -> on_seg a b x.
Proof.
  intros H E1 E2 E3. exists (area2 c a x / area2 a b c).
  assert (E : area2 a b x + area2 b c x + area2 c a x = area2 a b c) by (unv; ring). split.
  - split. { unfold Rdiv. apply Rmult_le_pos; auto. apply Rlt_le, Rinv_0_lt_compat; auto. } apply (Rmult_le_reg_r (area2 a b c)); auto. unfold Rdiv. rewrite Rmult_assoc, Rinv_l; lra.
  - assert (K1 : area2 a b c * (fst x - fst a) = area2 c a x * (fst b - fst a) + area2 a b x * (fst c - fst a)) by (unv; ring).
    assert (K2 : area2 a b c * (snd x - snd a) = area2 c a x * (snd b - snd a) + area2 a b x * (snd c - snd a)) by (unv; ring).
    rewrite E1 in K1, K2. destruct x as [x1 x2]. cbn [fst snd] in *. set (D := area2 a b c) in *. set (S1 := area2 c a (x1, x2)) in *. clearbody D S1. destruct a as [a1 a2], b as [b1 b2]. unv.
    apply pair_eq; apply (Rmult_eq_reg_l D); try lra.
    + replace (D * (a1 + S1 / D * (b1 - a1))) with (D * a1 + S1 * (b1 - a1)) by (field; lra). lra.
    + replace (D * (a2 + S1 / D * (b2 - a2))) with (D * a2 + S1 * (b2 - a2)) by (field; lra). lra.
Qed.
Lemma two_sides a b c x : area2 a b c <> 0 -> on_seg a b x -> on_seg a c x -> x = a.
Proof. intros H H1 H2. apply (L_PolHull2.two_rays a b c); auto. Qed.
Lemma off_seg_nbhd a b x : a <> b -> ~ on_seg a b x -> nbhd x (fun y => ~ on_seg a b y).
Proof.
  intros Hab H. destruct (Rtotal_order (area2 a b x) 0) as [L|[E|G]].
  - eapply nbhd_mono; [apply nbhd_area_neg; eauto|]. cbv beta. intros y Hy S1. apply area_on_seg in S1. lra.
  - set (u := fst b - fst a). set (v := snd b - snd a).
    assert (Q : 0 < u * u + v * v).
    { destruct (Req_dec u 0) as [Eu|]; [destruct (Req_dec v 0) as [Ev|]|]; try nra. exfalso. apply Hab. destruct a, b. unfold u, v in *. cbn in *. apply pair_eq; lra. }
    set (t := (u * (fst x - fst a) + v * (snd x - snd a)) / (u * u + v * v)).
    assert (Et : t * (u * u + v * v) = u * (fst x - fst a) + v * (snd x - snd a)) by (unfold t; field; lra).
    assert (Ex : x = along a b t).
    { unfold t. destruct x as [x1 x2], a as [a1 a2], b as [b1 b2]. unfold u, v in *. unv.
      assert (Z : (b1 - a1) * (x2 - a2) = (b2 - a2) * (x1 - a1)) by lra.
      assert (U : forall y z w, (y - z) * ((b1 - a1) * (b1 - a1) + (b2 - a2) * (b2 - a2)) = ((b1 - a1) * (x1 - a1) + (b2 - a2) * (x2 - a2)) * w ->
                 y = z + ((b1 - a1) * (x1 - a1) + (b2 - a2) * (x2 - a2)) / ((b1 - a1) * (b1 - a1) + (b2 - a2) * (b2 - a2)) * w).
      { intros y z w Hy. apply (Rmult_eq_reg_r ((b1 - a1) * (b1 - a1) + (b2 - a2) * (b2 - a2))); [|lra]. rewrite Rmult_plus_distr_r. unfold Rdiv.
        rewrite !Rmult_assoc, (Rmult_comm w), <- Rmult_assoc, <- Rmult_assoc. rewrite (Rmult_assoc _ (/ _)), Rinv_l by lra. lra. }
      apply pair_eq; apply U.
      - replace (((b1 - a1) * (x1 - a1) + (b2 - a2) * (x2 - a2)) * (b1 - a1)) with ((b1 - a1) * (b1 - a1) * (x1 - a1) + (b2 - a2) * ((b1 - a1) * (x2 - a2))) by ring. rewrite Z. ring.
      - replace (((b1 - a1) * (x1 - a1) + (b2 - a2) * (x2 - a2)) * (b2 - a2)) with ((b1 - a1) * ((b2 - a2) * (x1 - a1)) + (b2 - a2) * (b2 - a2) * (x2 - a2)) by ring. rewrite <- Z. ring. }
    assert (D : t < 0 \/ 1 < t). { destruct (Rlt_dec t 0); auto. destruct (Rlt_dec 1 t); auto. exfalso. apply H. exists t. split; auto. lra. }
    destruct D as [D|D].
    + eapply nbhd_mono; [apply (nbhd_lin x (- u) (- v) (u * fst a + v * snd a)); nra|]. cbv beta. intros y Hy (s & Hs & ->). unfold u, v in *. unv. nra.
    + eapply nbhd_mono; [apply (nbhd_lin x u v (- (u * fst b + v * snd b))); [unfold u, v in *; nra]|]. cbv beta. intros y Hy (s & Hs & ->). unfold u, v in *. unv. nra.
  - eapply nbhd_mono; [apply nbhd_area; eauto|]. cbv beta. intros y Hy S1. apply area_on_seg in S1. lra.
Qed.
Lemma along_inj a b s t : a <> b -> along a b s = along a b t -> s = t.
Proof.
  intros H E. destruct (Req_dec s t); auto. exfalso. apply H. destruct a as [a1 a2], b as [b1 b2]. unv. injection E as E1 E2.
  assert ((s - t) * (b1 - a1) = 0) by lra. assert ((s - t) * (b2 - a2) = 0) by lra. apply Rmult_integral in H1, H2. apply pair_eq; lra.
Qed.
Lemma along_0 a b : along a b 0 = a.
Proof. destruct a. unv. apply pair_eq; ring. Qed.
Lemma along_1 a b : along a b 1 = b.
Proof. destruct a, b. unv. apply pair_eq; ring. Qed.

(** in the open segment *)
Definition in_seg (a b x : Pt) : Prop := exists t, 0 < t < 1 /\ x = along a b t.
Lemma in_seg_on a b x : in_seg a b x -> on_seg a b x.
Proof. intros (t & Ht & E). exists t. split; auto. lra. Qed.
Lemma on_seg_cases a b x : on_seg a b x -> x = a \/ x = b \/ in_seg a b x.
Proof.
  intros (t & Ht & E). destruct (Req_dec t 0) as [->|]. { left. rewrite E. apply along_0. } destruct (Req_dec t 1) as [->|]. { right; left. rewrite E. apply along_1. }
  right; right. exists t. split; auto. lra.
Qed.
Lemma in_seg_ends a b x : a <> b -> in_seg a b x -> x <> a /\ x <> b.
Proof.
  intros H (t & Ht & E). split; intros E'; subst x; [rewrite <- (along_0 a b) in E' at 2|rewrite <- (along_1 a b) in E' at 2]; apply along_inj in E'; auto; lra.
Qed.
Lemma in_seg_area a b c x : in_seg a b x -> 0 < area2 a b c -> 0 < area2 b c x /\ 0 < area2 c a x.
Proof.
  intros (t & Ht & ->) H. replace (area2 b c (along a b t)) with ((1 - t) * area2 a b c) by (unv; ring). replace (area2 c a (along a b t)) with (t * area2 a b c) by (unv; ring). split; nra.
Qed.

(** ** Triangles *)
Lemma tri_dec a b c x : in_triangle_of a b c x \/ ~ in_triangle_of a b c x.
Proof.
  unfold in_triangle_of. destruct (Rle_dec 0 (area2 a b x)); [|tauto]. destruct (Rle_dec 0 (area2 b c x)); [|tauto]. destruct (Rle_dec 0 (area2 c a x)); tauto.
Qed.
Lemma tri_closed a b c x : ~ in_triangle_of a b c x -> nbhd x (fun y => ~ in_triangle_of a b c y).
Proof.
  intros H. unfold in_triangle_of in *.
  assert (D : area2 a b x < 0 \/ area2 b c x < 0 \/ area2 c a x < 0).
  { destruct (Rle_dec 0 (area2 a b x)); [|lra]. destruct (Rle_dec 0 (area2 b c x)); [|lra]. destruct (Rle_dec 0 (area2 c a x)); [tauto|lra]. }
  destruct D as [D|[D|D]]; (eapply nbhd_mono; [apply nbhd_area_neg; exact D|]); cbv beta; intros y Hy (H1 & H2 & H3); lra.
Qed.
Lemma tri_turn a b c x : in_triangle_of a b c x <-> in_triangle_of b c a x.
Proof. unfold in_triangle_of. tauto. Qed.
Lemma tri_edge a b c x : 0 < area2 a b c -> on_seg a b x -> in_triangle_of a b c x.
Proof.
  intros D (t & Ht & ->). unfold in_triangle_of. replace (area2 a b (along a b t)) with 0 by (unv; ring).
  replace (area2 b c (along a b t)) with ((1 - t) * area2 a b c) by (unv; ring). replace (area2 c a (along a b t)) with (t * area2 a b c) by (unv; ring). repeat split; nra.
Qed.
(** near an inner point of a side, the triangle is the left of the side *)
Lemma tri_near a b c m : 0 < area2 a b c -> in_seg a b m -> nbhd m (fun y => in_triangle_of a b c y <-> 0 <= area2 a b y).
Proof.
  intros D Hm. destruct (in_seg_area _ _ _ _ Hm D) as [H1 H2]. eapply nbhd_mono; [apply nbhd_and; [apply (nbhd_area _ _ _ H1)|apply (nbhd_area _ _ _ H2)]|].
  cbv beta. intros y [Y1 Y2]. unfold in_triangle_of. split; [tauto|]. intros. repeat split; lra.
Qed.
Definition in_tri (a b c x : Pt) : Prop := 0 < area2 a b x /\ 0 < area2 b c x /\ 0 < area2 c a x.
Lemma tri_cases a b c x : 0 < area2 a b c -> in_triangle_of a b c x -> in_tri a b c x \/ on_seg a b x \/ on_seg b c x \/ on_seg c a x.
Proof.
  intros D (H1 & H2 & H3). assert (D2 : 0 < area2 b c a) by (rewrite area2_cyc; auto). assert (D3 : 0 < area2 c a b) by (rewrite area2_cyc, area2_cyc; auto).
  destruct H1 as [H1|H1]; [|right; left; apply (tri_side a b c); auto]. destruct H2 as [H2|H2]; [|right; right; left; apply (tri_side b c a); auto; lra].
  destruct H3 as [H3|H3]; [|right; right; right; apply (tri_side c a b); auto; lra]. left. repeat split; auto.
Qed.
Lemma in_tri_nbhd a b c x : in_tri a b c x -> nbhd x (in_tri a b c).
Proof.
  intros (H1 & H2 & H3). eapply nbhd_mono; [apply nbhd_and; [apply (nbhd_area _ _ _ H1)|apply nbhd_and; [apply (nbhd_area _ _ _ H2)|apply (nbhd_area _ _ _ H3)]]|].
  intros y (Y1 & Y2 & Y3). repeat split; auto.
Qed.
Lemma in_tri_of a b c x : in_tri a b c x -> in_triangle_of a b c x.
Proof. intros (H1 & H2 & H3). repeat split; lra. Qed.
Lemma in_tri_seg a b c x y z : in_tri a b c x -> in_tri a b c y -> on_seg x y z -> in_tri a b c z.
Proof.
  intros (H1 & H2 & H3) (G1 & G2 & G3) (t & Ht & ->).
  assert (L : forall p q, 0 < area2 p q x -> 0 < area2 p q y -> 0 < area2 p q (along x y t)).
  { intros p q P1 P2. replace (area2 p q (along x y t)) with ((1 - t) * area2 p q x + t * area2 p q y) by (unv; ring).
    destruct (Req_dec t 0) as [->|]; [lra|]. assert (0 < t * area2 p q y) by (apply Rmult_lt_0_compat; lra). nra. }
  repeat split; auto.
Qed.

(** ** Points joined by a broken line *)
Inductive joined (P : Pt -> Prop) : Pt -> Pt -> Prop :=
| j_seg x y : (forall z, on_seg x y z -> P z) -> joined P x y
| j_trans x y z : joined P x y -> joined P y z -> joined P x z.
Lemma joined_sym P x y : joined P x y -> joined P y x.
Proof.
  induction 1 as [x y H|x y z _ IH1 _ IH2]; [|eapply j_trans; eauto]. apply j_seg. intros w Hw. apply H. apply on_seg_sym; auto.
Qed.
Lemma joined_mono (P Q : Pt -> Prop) x y : (forall z, P z -> Q z) -> joined P x y -> joined Q x y.
Proof. intros M. induction 1 as [x y H|x y z _ IH1 _ IH2]; [apply j_seg; auto|eapply j_trans; eauto]. Qed.

(** ** What is true of the boundary edges and the region *)
Definition on_edges (Ed : Pt -> Pt -> Prop) (x : Pt) : Prop := exists a b, Ed a b /\ on_seg a b x.
Definition inside (Ed : Pt -> Pt -> Prop) (A : region) (x : Pt) : Prop := A x /\ ~ on_edges Ed x.
Record ringed (Ed : Pt -> Pt -> Prop) (A : region) : Prop := {
  r_edge : forall a b, Ed a b -> a <> b;
  r_dec : forall x, A x \/ ~ A x;
  r_on : forall x, on_edges Ed x -> A x;
  r_closed : forall x, ~ A x -> nbhd x (fun y => ~ A y);
  r_simple : forall a b c d x, Ed a b -> Ed c d -> (a, b) <> (c, d) -> on_seg a b x -> on_seg c d x -> x = a \/ x = b;
  r_side : forall a b m, Ed a b -> in_seg a b m -> nbhd m (fun y => (0 <= area2 a b y -> A y) /\ (area2 a b y < 0 -> ~ A y) /\ (on_edges Ed y -> on_seg a b y));
  r_open : forall x, A x -> ~ on_edges Ed x -> nbhd x A;
  r_link : forall x y, inside Ed A x -> inside Ed A y -> joined (inside Ed A) x y;
  r_bound : exists M, forall x, A x -> norm x <= M }.

Lemma ringed_ext (Ed Ed' : Pt -> Pt -> Prop) (A B : region) : (forall a b, Ed a b <-> Ed' a b) -> (forall x, A x <-> B x) -> ringed Ed A -> ringed Ed' B.
Proof.
  intros HE HA [r1 r2 r3 r4 r5 r6 r7 r8 r9].
  assert (O : forall x, on_edges Ed x <-> on_edges Ed' x). { intros x. split; intros (a & b & H1 & H2); exists a, b; split; auto; apply HE; auto. }
  assert (I : forall x, inside Ed A x <-> inside Ed' B x). { intros x. unfold inside. rewrite HA, O. tauto. }
  split.
  - intros a b H. apply r1, HE; auto.
  - intros x. rewrite <- HA. auto.
  - intros x H. apply HA, r3, O; auto.
  - intros x H. rewrite <- HA in H. eapply nbhd_mono; [apply r4; auto|]. cbv beta. intros y. rewrite HA. auto.
  - intros a b c d x H1 H2. apply r5; apply HE; auto.
  - intros a b m H Hm. eapply nbhd_mono; [apply r6; [apply HE; eauto|eauto]|]. cbv beta. intros y. rewrite HA, O. auto.
  - intros x H1 H2. eapply nbhd_mono; [apply r7|]; [apply HA; auto|rewrite O; auto|]. intros y. apply HA.
  - intros x y Hx Hy. eapply joined_mono; [|apply r8; apply I; auto]. intros z. apply I.
  - destruct r9 as [M HM]. exists M. intros x Hx. apply HM, HA; auto.
Qed.
Lemma hull_bound a b c x : 0 < area2 a b c -> in_triangle_of a b c x -> norm x <= norm a + norm b + norm c.
Proof.
  intros D (H1 & H2 & H3). assert (E : area2 a b x + area2 b c x + area2 c a x = area2 a b c) by (unv; ring).
  set (s := area2 a b c) in *. set (p := area2 b c x / s). set (q := area2 c a x / s). set (r := area2 a b x / s).
  assert (Ip : 0 < / s) by (apply Rinv_0_lt_compat; auto).
  assert (Hp : 0 <= p) by (apply Rmult_le_pos; lra). assert (Hq : 0 <= q) by (apply Rmult_le_pos; lra). assert (Hr : 0 <= r) by (apply Rmult_le_pos; lra).
  assert (Es : p + q + r = 1). { unfold p, q, r, Rdiv. rewrite <- !Rmult_plus_distr_r. replace (area2 b c x + area2 c a x + area2 a b x) with s by lra. apply Rinv_r. lra. }
  assert (Ex : x = vadd (smul p a) (vadd (smul q b) (smul r c))).
  { assert (F1 : s * fst x = area2 b c x * fst a + area2 c a x * fst b + area2 a b x * fst c) by (unfold s; unv; ring).
    assert (F2 : s * snd x = area2 b c x * snd a + area2 c a x * snd b + area2 a b x * snd c) by (unfold s; unv; ring).
    assert (Ep : s * p = area2 b c x) by (unfold p; field; lra). assert (Eq : s * q = area2 c a x) by (unfold q; field; lra). assert (Er : s * r = area2 a b x) by (unfold r; field; lra).
    rewrite <- Ep, <- Eq, <- Er in F1, F2. clearbody p q r s. destruct x, a, b, c. unv. apply pair_eq; apply (Rmult_eq_reg_l s); lra. }
  rewrite Ex. eapply Rle_trans; [apply norm_triangle|]. eapply Rle_trans; [apply Rplus_le_compat_l, norm_triangle|]. rewrite !norm_smul, !Rabs_right by lra.
  pose proof (norm_nonneg a). pose proof (norm_nonneg b). pose proof (norm_nonneg c). nra.
Qed.

Lemma ringed_triangle a b c : 0 < area2 a b c ->
  ringed (fun p q => (p = a /\ q = b) \/ (p = b /\ q = c) \/ (p = c /\ q = a)) (in_triangle_of a b c).
Proof.
  intros D. set (Ed := fun p q => (p = a /\ q = b) \/ (p = b /\ q = c) \/ (p = c /\ q = a)).
  assert (D2 : 0 < area2 b c a) by (rewrite area2_cyc; auto). assert (D3 : 0 < area2 c a b) by (rewrite area2_cyc, area2_cyc; auto).
  assert (Nab : a <> b) by (intros ->; unv; lra). assert (Nbc : b <> c) by (intros ->; unv; lra). assert (Nca : c <> a) by (intros ->; unv; lra).
  assert (Hb : forall x, on_seg a b x -> on_seg b c x -> x = b). { intros x H1 H2. apply (two_sides b a c); auto using on_seg_sym. rewrite area2_swap, area2_cyc. lra. }
  assert (Hc : forall x, on_seg b c x -> on_seg c a x -> x = c). { intros x H1 H2. apply (two_sides c b a); auto using on_seg_sym. rewrite area2_rev. lra. }
  assert (Ha : forall x, on_seg c a x -> on_seg a b x -> x = a). { intros x H1 H2. apply (two_sides a b c); auto using on_seg_sym. lra. }
  assert (OT : forall x, on_edges Ed x -> in_triangle_of a b c x).
  { intros x (p & q & [[-> ->]|[[-> ->]|[-> ->]]] & H). - apply tri_edge; auto. - apply tri_turn, tri_edge; auto. - apply -> tri_turn. apply tri_edge; auto. }
  assert (OI : forall x, in_tri a b c x -> ~ on_edges Ed x).
  { intros x (H1 & H2 & H3) (p & q & [[-> ->]|[[-> ->]|[-> ->]]] & H); apply area_on_seg in H; lra. }
  assert (IO : forall x, in_triangle_of a b c x -> ~ on_edges Ed x -> in_tri a b c x).
  { intros x H N. destruct (tri_cases a b c x D H) as [|[S1|[S1|S1]]]; auto; exfalso; apply N; [exists a, b|exists b, c|exists c, a]; unfold Ed; split; auto. }
  split.
  - intros p q [[-> ->]|[[-> ->]|[-> ->]]]; auto.
  - apply tri_dec.
  - exact OT.
  - apply tri_closed.
  - intros p q r s x [[-> ->]|[[-> ->]|[-> ->]]] [[-> ->]|[[-> ->]|[-> ->]]] N H1 H2; try congruence; auto; symmetry in N || idtac;
      first [left; now auto|right; now auto|idtac].
  - intros p q m H Hm. assert (X : forall u v w, 0 < area2 u v w -> in_seg u v m -> nbhd m (fun y => (0 <= area2 u v y -> in_triangle_of u v w y) /\ (area2 u v y < 0 -> ~ in_triangle_of u v w y) /\
                                    ~ on_seg v w y /\ ~ on_seg w u y)).
    { intros u v w Du Hu. destruct (in_seg_area _ _ _ _ Hu Du) as [H1 H2].
      eapply nbhd_mono; [apply nbhd_and; [apply (tri_near u v w m Du Hu)|apply nbhd_and; [apply (nbhd_area _ _ _ H1)|apply (nbhd_area _ _ _ H2)]]|].
      cbv beta. intros y (Hy & Y1 & Y2). rewrite Hy. split; [auto|]. split; [intros; lra|]. split; intros S1; apply area_on_seg in S1; lra. }
    assert (OE : forall y, on_edges Ed y -> on_seg a b y \/ on_seg b c y \/ on_seg c a y) by (intros y (p' & q' & [[-> ->]|[[-> ->]|[-> ->]]] & S1); auto).
    destruct H as [[-> ->]|[[-> ->]|[-> ->]]].
    + eapply nbhd_mono; [apply (X a b c); auto|]. cbv beta. intros y (Y1 & Y2 & Y3 & Y4). split; [auto|]. split; [auto|]. intros O. apply OE in O. tauto.
    + eapply nbhd_mono; [apply (X b c a); auto|]. cbv beta. intros y. rewrite (tri_turn a b c). intros (Y1 & Y2 & Y3 & Y4). split; [auto|]. split; [auto|]. intros O. apply OE in O. tauto.
    + eapply nbhd_mono; [apply (X c a b); auto|]. cbv beta. intros y. rewrite (tri_turn c a b). intros (Y1 & Y2 & Y3 & Y4). split; [auto|]. split; [auto|]. intros O. apply OE in O. tauto.
  - intros x H N. eapply nbhd_mono; [apply in_tri_nbhd, IO; auto|]. apply in_tri_of.
  - intros x y [Hx Nx] [Hy Ny]. apply j_seg. intros z Hz. assert (in_tri a b c z) by (apply (in_tri_seg a b c x y); auto). split; [apply in_tri_of; auto|auto].
  - exists (norm a + norm b + norm c). intros x Hx. apply hull_bound; auto.
Qed.
