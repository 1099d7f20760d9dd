(** The part of a simple polygon that is seen from infinity along the rays from a point [k] in general position. *)
From Coq Require Import Reals Lra Lia Psatz List Arith.
From Verif Require Import Num Spec S_PolHull L_Geom L_PolHull3 L_Ring L_Ring2.
Import ListNotations.
Open Scope R_scope.

Lemma on_seg_dec a b x : a <> b -> on_seg a b x \/ ~ on_seg a b x.
Proof.
  intros Hab. destruct (Req_dec (area2 a b x) 0) as [E|E]; [|right; intros S1; apply area_on_seg in S1; auto].
  set (u := fst b - fst a). set (v := snd b - snd a).
  assert (Q : 0 < u * u + v * v).
  { destruct (Req_dec u 0) as [Eu|]; [destruct (Req_dec v 0) as [Ev|]|]; try nra. exfalso. apply Hab. destruct a, b. unfold u, v in *. cbn in *. apply pair_eq; lra. }
  set (w := u * (fst x - fst a) + v * (snd x - snd a)).
  assert (X : forall t, x = along a b t -> w = t * (u * u + v * v)). { intros t ->. unfold w, u, v. unv. ring. }
  assert (Y : x = along a b (w / (u * u + v * v))).
  { assert (Z : u * (snd x - snd a) = v * (fst x - fst a)) by (unfold u, v; unv; lra).
    destruct x as [x1 x2]. cbn [fst snd] in *.
    assert (F : forall y z h, (y - z) * (u * u + v * v) = w * h -> y = z + w / (u * u + v * v) * h).
    { intros y z h Hy. apply (Rmult_eq_reg_r (u * u + v * v)); [|lra]. rewrite Rmult_plus_distr_r. replace (w / (u * u + v * v) * h * (u * u + v * v)) with (w * h) by (field; lra). lra. }
    unfold along, vadd, smul, vsub. cbn [fst snd]. apply pair_eq; apply F; fold u; fold v; unfold w.
    - replace ((u * (x1 - fst a) + v * (x2 - snd a)) * u) with (u * u * (x1 - fst a) + v * (u * (x2 - snd a))) by ring. rewrite Z. ring.
    - replace ((u * (x1 - fst a) + v * (x2 - snd a)) * v) with (u * (v * (x1 - fst a)) + v * v * (x2 - snd a)) by ring. rewrite <- Z. ring. }
  destruct (Rle_dec 0 w) as [L|L]; [destruct (Rle_dec w (u * u + v * v)) as [L'|L']|].
  - left. exists (w / (u * u + v * v)). split; auto. split; [apply Rmult_le_pos; auto; apply Rlt_le, Rinv_0_lt_compat; auto|].
    apply (Rmult_le_reg_r (u * u + v * v)); auto. unfold Rdiv. rewrite Rmult_assoc, Rinv_l; lra.
  - right. intros (t & Ht & E'). apply X in E'. nra.
  - right. intros (t & Ht & E'). apply X in E'. nra.
Qed.

Definition beyond (k y : Pt) (t : R) : Pt := vadd y (smul t (vsub y k)).

Section Lit.
  Variables (V : list Pt) (A : region) (k : Pt).
  Hypothesis Enc : encloses V A.
  Hypothesis GP : forall v w, In v V -> In w V -> v <> w -> area2 k v w <> 0.
  Definition Ed (a b : Pt) : Prop := In (a, b) (cyc_edges V).
  Let RO : ringed Ed A := proj1 (proj2 (proj2 (enc_ring V A Enc))).
  Let ND : NoDup V := proj1 (enc_ring V A Enc).

  Definition lit (y : Pt) : Prop := A y /\ forall t, 0 < t -> ~ A (beyond k y t).

  Lemma on_edges_dec x : on_edges Ed x \/ ~ on_edges Ed x.
  Proof.
    assert (X : forall l, (forall e, In e l -> In e (cyc_edges V)) -> (exists a b, In (a, b) l /\ on_seg a b x) \/ ~ (exists a b, In (a, b) l /\ on_seg a b x)).
    { induction l as [|[a b] l IH]; intros Hl. { right. intros (a & b & [] & _). }
      destruct (on_seg_dec a b x) as [H|H]. { apply (r_edge _ _ RO). apply Hl. left; auto. } { left. exists a, b. split; [left; auto|auto]. }
      destruct IH as [(p & q & Hp & S1)|N]. { intros; apply Hl; right; auto. } { left. exists p, q. split; [right; auto|auto]. }
      right. intros (p & q & [E|Hp] & S1); [injection E as -> ->; auto|apply N; eauto]. }
    apply X. auto.
  Qed.
  Lemma other_vertex v : In v V -> exists w, In w V /\ w <> v.
  Proof.
    intros Hv. destruct (cyc_from V v Hv) as [w Hw]. exists w. split; [apply (cyc_in _ _ _ Hw)|]. intros E. apply (r_edge _ _ RO v w Hw). auto.
  Qed.
  Lemma vertex_not_k v : In v V -> v <> k.
  Proof. intros Hv E. destruct (other_vertex v Hv) as (w & Hw & N). apply (GP v w Hv Hw); auto. subst. unv. ring. Qed.
  Lemma edge_area a b : Ed a b -> area2 k a b <> 0.
  Proof. intros H. destruct (cyc_in _ _ _ H). apply GP; auto. apply (r_edge _ _ RO); auto. Qed.
  Lemma vertex_on v : In v V -> on_edges Ed v.
  Proof. intros Hv. destruct (cyc_from V v Hv) as [w Hw]. exists v, w. split; auto. apply on_seg_l. Qed.
  Lemma vertex_A v : In v V -> A v.
  Proof. intros. apply (r_on _ _ RO), vertex_on; auto. Qed.
  Lemma k_off : ~ on_edges Ed k.
  Proof. intros (a & b & H & S1). apply (edge_area _ _ H). apply area_on_seg in S1. rewrite area2_cyc in S1. auto. Qed.
  Lemma edge_not_k x : on_edges Ed x -> x <> k.
  Proof. intros H ->. apply k_off; auto. Qed.

  (** the outermost point of the polygon in the direction of one of its points *)
  Lemma outermost x : A x -> x <> k -> exists s, 1 <= s /\ lit (along k x s).
  Proof.
    intros HA Hx. destruct (r_bound _ _ RO) as [M HM].
    set (P := fun s => 1 <= s /\ A (along k x s)).
    assert (N : 0 < norm (vsub x k)). { apply norm_pos. intros E. apply Hx. destruct x, k. unv. injection E as E1 E2. apply pair_eq; lra. }
    assert (B : bound P).
    { exists ((M + norm k) / norm (vsub x k)). intros s [Hs As]. apply HM in As.
      apply (Rmult_le_reg_r (norm (vsub x k))); auto. unfold Rdiv. rewrite Rmult_assoc, Rinv_l by lra. rewrite Rmult_1_r.
      assert (norm (smul s (vsub x k)) <= norm (along k x s) + norm k).
      { replace (smul s (vsub x k)) with (vadd (along k x s) (smul (-1) k)) by (unv; apply pair_eq; ring). rewrite <- (norm_opp k). apply norm_triangle. }
      rewrite norm_smul, Rabs_right in H by lra. lra. }
    assert (P1 : P 1). { split; [lra|]. rewrite along_1. auto. }
    destruct (completeness P B (ex_intro _ 1 P1)) as (m & Ub & Lub).
    assert (Hm : 1 <= m) by (apply Ub; auto).
    assert (Am : A (along k x m)).
    { destruct (r_dec _ _ RO (along k x m)) as [|N2]; auto. exfalso. apply (r_closed _ _ RO) in N2.
      destruct (nbhd_line _ (vsub x k) _ N2) as (r & Hr & HN). assert (m <= m - r / 2); [|lra].
      apply Lub. intros s [Hs As]. apply Rnot_lt_le. intros L. assert (s <= m) by (apply Ub; split; auto).
      apply (HN (s - m)). { rewrite Rabs_minus_sym, Rabs_right; lra. }
      replace (vadd (along k x m) (smul (s - m) (vsub x k))) with (along k x s) by (unv; apply pair_eq; ring). auto. }
    exists m. split; auto. split; auto. intros t Ht At. assert (m + t * m <= m); [|nra].
    apply Ub. split; [nra|]. replace (along k x (m + t * m)) with (beyond k (along k x m) t) by (unfold beyond; unv; apply pair_eq; ring). auto.
  Qed.
  Lemma lit_edge y : lit y -> y <> k -> on_edges Ed y.
  Proof.
    intros [HA HN] Hk. destruct (on_edges_dec y) as [|N]; auto. exfalso. pose proof (r_open _ _ RO y HA N) as O.
    destruct (nbhd_line _ (vsub y k) _ O) as (r & Hr & HB). apply (HN (r / 2)); [lra|]. apply HB. rewrite Rabs_right; lra.
  Qed.
  Lemma lit_dir a b y : Ed a b -> in_seg a b y -> lit y -> 0 < area2 k a b.
  Proof.
    intros H Hy [HA HN]. pose proof (edge_area _ _ H). apply Rnot_le_lt. intros L. assert (L' : area2 k a b < 0) by lra.
    pose proof (r_side _ _ RO a b y H Hy) as S1. destruct (nbhd_line _ (vsub y k) _ S1) as (r & Hr & HB).
    apply (HN (r / 2)); [lra|]. apply (HB (r / 2)). { rewrite Rabs_right; lra. }
    destruct Hy as (t & Ht & ->). replace (area2 a b (vadd (along a b t) (smul (r / 2) (vsub (along a b t) k)))) with (- (r / 2) * area2 k a b) by (unv; field). nra.
  Qed.
  Lemma in_edge_not_vertex a b y : Ed a b -> in_seg a b y -> ~ In y V.
  Proof.
    intros H Hy Hv. assert (Nab : a <> b) by (apply (r_edge _ _ RO); auto). destruct (in_seg_ends a b y Nab Hy) as [N1 N2].
    destruct (cyc_from V y Hv) as [w Hw]. destruct (r_simple _ _ RO a b y w y H Hw); auto; [|apply in_seg_on; auto|apply on_seg_l].
    intros E. injection E as -> ->. auto.
  Qed.
  (** an inner point of an edge belongs to that edge only *)
  Lemma only_edge a b c d x : Ed a b -> Ed c d -> in_seg a b x -> on_seg c d x -> a = c /\ b = d.
  Proof.
    intros H1 H2 Hx S1. assert (Nab : a <> b) by (apply (r_edge _ _ RO); auto). destruct (in_seg_ends a b x Nab Hx) as [N1 N2].
    destruct (Req_dec (fst a) (fst c)), (Req_dec (snd a) (snd c)), (Req_dec (fst b) (fst d)), (Req_dec (snd b) (snd d));
      try (destruct a, b, c, d; cbn in *; subst; split; congruence);
      (destruct (r_simple _ _ RO a b c d x H1 H2); auto; [intros E; injection E as -> ->; congruence|apply in_seg_on; auto|congruence|congruence]).
  Qed.
  Lemma lit_cases y : lit y -> y <> k -> In y V \/ exists a b, Ed a b /\ in_seg a b y /\ 0 < area2 k a b.
  Proof.
    intros L Hk. destruct (lit_edge y L Hk) as (a & b & H & S1). destruct (cyc_in _ _ _ H) as [Ia Ib].
    apply on_seg_cases in S1. destruct S1 as [->|[->|S1]]; auto. right. exists a, b. repeat split; auto. eapply lit_dir; eauto.
  Qed.
  Lemma lit_unique y s : lit y -> lit (along k y s) -> 0 < s -> s = 1.
  Proof.
    intros [HA HN] [HA' HN'] Hs. destruct (Rtotal_order s 1) as [L|[L|L]]; auto; exfalso.
    - apply (HN' (1 / s - 1)). { assert (1 < 1 / s). { apply (Rmult_lt_reg_r s); auto. unfold Rdiv. rewrite Rmult_assoc, Rinv_l; lra. } lra. }
      replace (beyond k (along k y s) (1 / s - 1)) with y; auto. unfold beyond. destruct y. unv. apply pair_eq; field; lra.
    - apply (HN (s - 1)); [lra|]. replace (beyond k y (s - 1)) with (along k y s); auto. unfold beyond. unv. apply pair_eq; ring.
  Qed.
  Lemma lit_dec y : A y -> y <> k -> lit y \/ exists s, 1 < s /\ lit (along k y s).
  Proof.
    intros HA Hk. destruct (outermost y HA Hk) as (s & Hs & L). destruct (Req_dec s 1) as [->|]; [left; rewrite along_1 in L; auto|]. right. exists s. split; auto. lra.
  Qed.
End Lit.
