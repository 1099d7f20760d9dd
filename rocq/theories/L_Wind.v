(** Signed angles, and the winding of a chain of points that leaves to infinity at both ends. *)
From Coq Require Import Reals Ranalysis5 Lra Psatz List.
From Verif Require Import Spec M_Cg L_Geom L_PolHull.
Import ListNotations.
Open Scope R_scope.

(** ** The signed angle from [u] to [v]; meaningless when they point in opposite directions *)
Definition ndot (u v : Pt) : R := norm u * norm v + dot u v.
Definition vang (u v : Pt) : R := 2 * atan (cross u v / ndot u v).

Lemma nn_sq u v : (norm u * norm v) * (norm u * norm v) = dot u v * dot u v + cross u v * cross u v.
Proof. rewrite dot_cross_id, <- !norm_sq. ring. Qed.
Lemma nn_nonneg u v : 0 <= norm u * norm v.
Proof. apply Rmult_le_pos; apply norm_nonneg. Qed.
Lemma ndot_nn u v : 0 < ndot u v -> 0 < norm u * norm v.
Proof.
  unfold ndot. intros H. pose proof (nn_nonneg u v) as P. pose proof (nn_sq u v) as Q. destruct P as [P|P]; auto. rewrite <- P in *.
  assert (dot u v = 0) by nra. lra.
Qed.

Lemma vang_cs u v : 0 < ndot u v -> cos (vang u v) * (norm u * norm v) = dot u v /\ sin (vang u v) * (norm u * norm v) = cross u v.
Proof.
  intros H. pose proof (ndot_nn _ _ H) as P. pose proof (nn_sq u v) as Q. unfold vang, ndot in *.
  set (n := norm u * norm v) in *. set (d := dot u v) in *. set (c := cross u v) in *.
  rewrite cos_2a, sin_2a, cos_atan, sin_atan.
  set (t := c / (n + d)). assert (Ht : 1 + Rsqr t = 2 * n / (n + d)).
  { unfold t, Rsqr. replace (1 + c / (n + d) * (c / (n + d))) with (((n + d) * (n + d) + c * c) / ((n + d) * (n + d))) by (field; lra).
    replace ((n + d) * (n + d) + c * c) with (2 * n * (n + d)) by nra. field. lra. }
  assert (S1 : sqrt (1 + Rsqr t) * sqrt (1 + Rsqr t) = 2 * n / (n + d)).
  { rewrite sqrt_sqrt; auto. unfold Rsqr. nra. }
  assert (S0 : 0 < sqrt (1 + Rsqr t)). { apply sqrt_lt_R0. unfold Rsqr. nra. }
  set (r := sqrt (1 + Rsqr t)) in *.
  assert (Er : / r * / r = (n + d) / (2 * n)). { rewrite <- Rinv_mult, S1. field. lra. }
  unfold Rdiv. rewrite !Rmult_1_l. split.
  - replace (/ r * / r - t * / r * (t * / r)) with ((1 - t * t) * (/ r * / r)) by ring. rewrite Er. unfold t.
    replace ((1 - c / (n + d) * (c / (n + d))) * ((n + d) / (2 * n)) * n) with (((n + d) * (n + d) - c * c) / (2 * (n + d))) by (field; lra).
    replace ((n + d) * (n + d) - c * c) with (d * (2 * (n + d))) by nra. field. lra.
  - replace (2 * (t * / r) * (/ r)) with (2 * t * (/ r * / r)) by ring. rewrite Er. unfold t. field. lra.
Qed.
Lemma vang_bound u v : - PI < vang u v < PI.
Proof. unfold vang. pose proof (atan_bound (cross u v / ndot u v)). lra. Qed.
Lemma vang_pos u v : 0 < ndot u v -> (0 < vang u v <-> 0 < cross u v).
Proof.
  intros H. unfold vang. split; intros Hc.
  - apply Rnot_le_lt. intros Hn. assert (cross u v / ndot u v <= 0).
    { pose proof (Rinv_0_lt_compat _ H). unfold Rdiv. nra. }
    destruct H0 as [H0|H0]. { apply atan_increasing in H0. rewrite atan_0 in H0. lra. } rewrite H0, atan_0 in Hc. lra.
  - assert (0 < cross u v / ndot u v) by (apply Rdiv_lt_0_compat; auto). apply atan_increasing in H0. rewrite atan_0 in H0. lra.
Qed.
Lemma cross_anti u v : cross u v = - cross v u.
Proof. unv. ring. Qed.
Lemma ndot_sym u v : ndot u v = ndot v u.
Proof. unfold ndot. unv. ring. Qed.
Lemma vang_anti u v : vang u v = - vang v u.
Proof.
  unfold vang. rewrite (cross_anti u v), (ndot_sym u v). unfold Rdiv. rewrite Ropp_mult_distr_l_reverse, atan_opp. ring.
Qed.
Lemma vang_neg u v : 0 < ndot u v -> (vang u v < 0 <-> cross u v < 0).
Proof.
  intros H. rewrite vang_anti, (cross_anti u v). rewrite ndot_sym in H. pose proof (vang_pos _ _ H). split; intros; [assert (0 < vang v u) by lra|]; 
  [apply H0 in H2; lra|]. assert (0 < cross v u) by lra. apply H0 in H2. lra.
Qed.
(** beyond a right angle *)
Lemma vang_wide u v : 0 < ndot u v -> dot u v < 0 -> 0 < cross u v -> PI / 2 < vang u v.
Proof.
  intros H D C. apply Rnot_le_lt. intros Hn. pose proof (vang_bound u v) as B. destruct (vang_cs _ _ H) as [Hc _]. pose proof (ndot_nn _ _ H) as P.
  assert (0 < vang u v) by (apply vang_pos; auto). assert (0 <= cos (vang u v)) by (apply cos_ge_0; lra). nra.
Qed.
Lemma vang_smul c c' u v : 0 < c -> 0 < c' -> vang (smul c u) (smul c' v) = vang u v.
Proof.
  intros Hc Hc'. unfold vang, ndot. rewrite !norm_smul, !Rabs_right by lra. f_equal. f_equal.
  replace (cross (smul c u) (smul c' v)) with (c * c' * cross u v) by (unv; ring).
  replace (c * norm u * (c' * norm v) + dot (smul c u) (smul c' v)) with (c * c' * (norm u * norm v + dot u v)) by (unv; ring).
  unfold Rdiv. rewrite Rinv_mult, Rinv_mult. generalize (/ (norm u * norm v + dot u v)). intros z. field. lra.
Qed.
Lemma ndot_smul c c' u v : 0 < c -> 0 < c' -> ndot (smul c u) (smul c' v) = c * c' * ndot u v.
Proof. intros Hc Hc'. unfold ndot. rewrite !norm_smul, !Rabs_right by lra. unv; ring. Qed.
Lemma vang_self u : vang u u = 0.
Proof. unfold vang. replace (cross u u) with 0 by (unv; ring). unfold Rdiv. rewrite Rmult_0_l, atan_0. ring. Qed.

(** ** Unit directions: turning by [t] *)
Definition unit (u : Pt) : Pt := smul (/ norm u) u.
Lemma rotv_add s t p : rotv (s + t) p = rotv s (rotv t p).
Proof. unfold rotv. cbn. rewrite cos_plus, sin_plus. apply pair_eq; ring. Qed.
Lemma rotv_0 p : rotv 0 p = p.
Proof. destruct p. unfold rotv. rewrite cos_0, sin_0. cbn. apply pair_eq; ring. Qed.
Lemma vang_turns u v : 0 < ndot u v -> rotv (vang u v) (unit u) = unit v.
Proof.
  intros H. destruct (vang_cs _ _ H) as [C S1]. pose proof (ndot_nn _ _ H) as P. pose proof (norm_nonneg u). pose proof (norm_nonneg v).
  assert (0 < norm u) by nra. assert (0 < norm v) by nra. pose proof (norm_sq u) as U2.
  assert (C' : cos (vang u v) = dot u v / (norm u * norm v)) by (rewrite <- C; field; lra).
  assert (S' : sin (vang u v) = cross u v / (norm u * norm v)) by (rewrite <- S1; field; lra).
  unfold rotv. rewrite C', S'. unfold unit. set (n := norm u) in *. set (m := norm v) in *. clearbody n m. destruct u as [a b], v as [c d]. unv.
  apply pair_eq.
  - replace ((a * c + b * d) / (n * m) * (/ n * a) - (a * d - b * c) / (n * m) * (/ n * b)) with ((a * a + b * b) * c / (n * n * m)) by (field; lra).
    rewrite <- U2. field. lra.
  - replace ((a * d - b * c) / (n * m) * (/ n * a) + (a * c + b * d) / (n * m) * (/ n * b)) with ((a * a + b * b) * d / (n * n * m)) by (field; lra).
    rewrite <- U2. field. lra.
Qed.
Lemma unit_sq u : 0 < norm u -> fst (unit u) * fst (unit u) + snd (unit u) * snd (unit u) = 1.
Proof.
  intros H. pose proof (norm_sq u) as E. unfold unit. set (n := norm u) in *. clearbody n. destruct u as [a b]. unv.
  replace (/ n * a * (/ n * a) + / n * b * (/ n * b)) with ((a * a + b * b) / (n * n)) by (field; lra). rewrite <- E. field. lra.
Qed.
(** two turns with the same effect on a unit vector have the same sine and cosine *)
Lemma rotv_inj s t p : fst p * fst p + snd p * snd p = 1 -> rotv s p = rotv t p -> cos s = cos t /\ sin s = sin t.
Proof.
  destruct p as [a b]. cbn. unfold rotv. cbn. intros H E. injection E as E1 E2. split.
  - assert ((cos s - cos t) * (a * a + b * b) = 0) by (replace ((cos s - cos t) * (a * a + b * b)) with
      (a * ((cos s * a - sin s * b) - (cos t * a - sin t * b)) + b * ((sin s * a + cos s * b) - (sin t * a + cos t * b))) by ring; rewrite E1, E2; ring).
    rewrite H in H0. lra.
  - assert ((sin s - sin t) * (a * a + b * b) = 0) by (replace ((sin s - sin t) * (a * a + b * b)) with
      (a * ((sin s * a + cos s * b) - (sin t * a + cos t * b)) - b * ((cos s * a - sin s * b) - (cos t * a - sin t * b))) by ring; rewrite E1, E2; ring).
    rewrite H in H0. lra.
Qed.
(** equal sine and cosine, less than a full turn apart: equal *)
Lemma cs_eq s t : cos s = cos t -> sin s = sin t -> Rabs (s - t) < 2 * PI -> s = t.
Proof.
  intros C S1 B. assert (Hc : cos (s - t) = 1). { rewrite cos_minus, C, S1. pose proof (sin2_cos2 t) as P. unfold Rsqr in P. lra. }
  apply Rabs_def2 in B. destruct (Req_dec s t) as [|Hn]; auto. exfalso.
  assert (Hs : sin ((s - t) / 2) = 0). { pose proof (cos_2a_sin ((s - t) / 2)) as P. replace (2 * ((s - t) / 2)) with (s - t) in P by lra. nra. }
  destruct (Rtotal_order s t) as [L|[L|L]]; try lra.
  - assert (0 < sin ((t - s) / 2)) by (apply sin_gt_0; lra). replace ((t - s) / 2) with (- ((s - t) / 2)) in H by lra. rewrite sin_neg in H. lra.
  - assert (0 < sin ((s - t) / 2)) by (apply sin_gt_0; lra). lra.
Qed.

(** ** Continuity *)
Definition cont2 (u : R -> Pt) (s : R) : Prop := continuity_pt (fun t => fst (u t)) s /\ continuity_pt (fun t => snd (u t)) s.
Lemma cont_norm u s : cont2 u s -> continuity_pt (fun t => norm (u t)) s.
Proof.
  intros [H1 H2]. unfold norm, norm2, dot.
  apply (continuity_pt_comp (fun t => fst (u t) * fst (u t) + snd (u t) * snd (u t)) sqrt).
  - apply (continuity_pt_plus (fun t => fst (u t) * fst (u t)) (fun t => snd (u t) * snd (u t))).
    + apply (continuity_pt_mult (fun t => fst (u t)) (fun t => fst (u t))); auto.
    + apply (continuity_pt_mult (fun t => snd (u t)) (fun t => snd (u t))); auto.
  - apply continuity_pt_sqrt. nra.
Qed.
Lemma cont_vang u v s : cont2 u s -> cont2 v s -> 0 < ndot (u s) (v s) -> continuity_pt (fun t => vang (u t) (v t)) s.
Proof.
  intros Hu Hv P. pose proof (cont_norm _ _ Hu) as Nu. pose proof (cont_norm _ _ Hv) as Nv. destruct Hu as [U1 U2], Hv as [V1 V2]. unfold vang.
  apply (continuity_pt_mult (fun _ => 2) (fun t => atan (cross (u t) (v t) / ndot (u t) (v t)))). { apply continuity_pt_const. intros ? ?. auto. }
  apply (continuity_pt_comp (fun t => cross (u t) (v t) / ndot (u t) (v t)) atan).
  - apply (continuity_pt_div (fun t => cross (u t) (v t)) (fun t => ndot (u t) (v t))); [| |lra].
    + unfold cross. apply (continuity_pt_minus (fun t => fst (u t) * snd (v t)) (fun t => snd (u t) * fst (v t))).
      * apply (continuity_pt_mult (fun t => fst (u t)) (fun t => snd (v t))); auto.
      * apply (continuity_pt_mult (fun t => snd (u t)) (fun t => fst (v t))); auto.
    + unfold ndot, dot. apply (continuity_pt_plus (fun t => norm (u t) * norm (v t)) (fun t => fst (u t) * fst (v t) + snd (u t) * snd (v t))).
      * apply (continuity_pt_mult (fun t => norm (u t)) (fun t => norm (v t))); auto.
      * apply (continuity_pt_plus (fun t => fst (u t) * fst (v t)) (fun t => snd (u t) * snd (v t))).
        -- apply (continuity_pt_mult (fun t => fst (u t)) (fun t => fst (v t))); auto.
        -- apply (continuity_pt_mult (fun t => snd (u t)) (fun t => snd (v t))); auto.
  - apply derivable_continuous_pt, derivable_pt_atan.
Qed.
Lemma cont_lin a b s : continuity_pt (fun t => a + t * b) s.
Proof.
  apply (continuity_pt_plus (fun _ => a) (fun t => t * b)). { apply continuity_pt_const. intros ? ?. auto. }
  apply (continuity_pt_mult (fun t => t) (fun _ => b)). { apply derivable_continuous_pt, derivable_pt_id. } apply continuity_pt_const. intros ? ?. auto.
Qed.
Lemma cont_affine a b s : cont2 (fun t => vadd a (smul t b)) s.
Proof. split; unv; apply cont_lin. Qed.
Lemma cont_const2 a s : cont2 (fun _ => a) s.
Proof. split; apply continuity_pt_const; intros ? ?; auto. Qed.
(** an angle that varies continuously while its sine and cosine stay the same stays the same *)
Lemma steady f : (forall s, 0 <= s <= 1 -> continuity_pt f s) ->
  (forall s, 0 <= s <= 1 -> cos (f s) = cos (f 0) /\ sin (f s) = sin (f 0)) -> f 1 = f 0.
Proof.
  intros C E. destruct (Rlt_dec (Rabs (f 1 - f 0)) (2 * PI)) as [L|L]. { apply cs_eq; auto; apply E; lra. } exfalso.
  assert (X : exists z, 0 <= z <= 1 /\ (f z = f 0 + PI \/ f z = f 0 - PI)).
  { pose proof PI_RGT_0 as PP. apply Rnot_lt_le in L. unfold Rabs in L. destruct (Rcase_abs (f 1 - f 0)) as [N|N].
    - destruct (IVT_interv (fun s => f 0 - PI - f s) 0 1) as (z & Hz & E'); try lra.
      + intros a Ha. apply (continuity_pt_minus (fun _ => f 0 - PI) f); auto. apply continuity_pt_const. intros ? ?. auto.
      + exists z. split; auto. right. cbn in E'. lra.
    - destruct (IVT_interv (fun s => f s - (f 0 + PI)) 0 1) as (z & Hz & E'); try lra.
      + intros a Ha. apply (continuity_pt_minus f (fun _ => f 0 + PI)); auto. apply continuity_pt_const. intros ? ?. auto.
      + exists z. split; auto. left. cbn in E'. lra. }
  destruct X as (z & Hz & D). destruct (E z Hz) as [C1 S1]. pose proof (sin2_cos2 (f 0)) as Q. unfold Rsqr in Q.
  destruct D as [D|D]; rewrite D in C1, S1.
  - rewrite neg_cos in C1. rewrite neg_sin in S1. nra.
  - unfold Rminus in C1, S1. replace (f 0 + - PI) with (- (- f 0 + PI)) in C1, S1 by ring. rewrite cos_neg, neg_cos, cos_neg in C1.
    rewrite sin_neg, neg_sin, sin_neg in S1. nra.
Qed.

(** ** The winding of a chain around a point, finite (1, x) or at infinity (0, d) *)
Definition hpt : Type := (R * Pt)%type.
Definition hv (h : hpt) (a : Pt) : Pt := vsub (smul (fst h) a) (snd h).
Definition hline (h h' : hpt) (s : R) : hpt := (fst h + s * (fst h' - fst h), along (snd h) (snd h') s).
Section Chain.
  Variables (d1 d2 : Pt).
  Fixpoint turned (h : hpt) (p : Pt) (l : list Pt) : R :=
    match l with [] => 0 | q :: r => vang (hv h p) (hv h q) + turned h q r end.
  Fixpoint clear_of (h : hpt) (p : Pt) (l : list Pt) : Prop :=
    match l with [] => True | q :: r => 0 < ndot (hv h p) (hv h q) /\ clear_of h q r end.
  (** the chain p, l, prolonged to infinity in direction d1 from its first and d2 from its last point *)
  Definition winds (h : hpt) (p : Pt) (l : list Pt) : R := turned h p l + vang (hv h (last l p)) d2 - vang (hv h p) d1.
  Definition clears (h : hpt) (p : Pt) (l : list Pt) : Prop :=
    clear_of h p l /\ 0 < ndot (hv h (last l p)) d2 /\ 0 < ndot (hv h p) d1.

  Lemma turned_turns h p l : clear_of h p l -> rotv (turned h p l) (unit (hv h p)) = unit (hv h (last l p)).
  Proof.
    revert p. induction l as [|q r IH]; intros p H; cbn [turned clear_of] in *.
    - apply rotv_0.
    - destruct H as [H1 H2]. rewrite Rplus_comm, rotv_add, vang_turns by auto. rewrite IH by auto. rewrite last_cons. auto.
  Qed.
  Lemma winds_turns h p l : clears h p l -> rotv (winds h p l) (unit d1) = unit d2.
  Proof.
    intros (H1 & H2 & H3). unfold winds. unfold Rminus. rewrite <- vang_anti. rewrite rotv_add, vang_turns by (rewrite ndot_sym; auto).
    rewrite Rplus_comm, rotv_add, turned_turns by auto. apply vang_turns; auto.
  Qed.
  Lemma winds_cs h h' p l p' l' : 0 < norm d1 -> clears h p l -> clears h' p' l' -> cos (winds h p l) = cos (winds h' p' l') /\ sin (winds h p l) = sin (winds h' p' l').
  Proof. intros N H H'. apply (rotv_inj _ _ (unit d1)). { apply unit_sq; auto. } rewrite !winds_turns; auto. Qed.

  Lemma hv_line h h' s a : hv (hline h h' s) a = vadd (hv h a) (smul s (vsub (hv h' a) (hv h a))).
  Proof. unfold hv, hline. unv. apply pair_eq; ring. Qed.
  Lemma cont_hv h h' a s : cont2 (fun t => hv (hline h h' t) a) s.
  Proof.
    pose proof (cont_affine (hv h a) (vsub (hv h' a) (hv h a)) s) as [C1 C2]. split.
    - refine (continuity_pt_locally_ext _ _ 1 s Rlt_0_1 _ C1). intros y _. cbv beta. rewrite hv_line. auto.
    - refine (continuity_pt_locally_ext _ _ 1 s Rlt_0_1 _ C2). intros y _. cbv beta. rewrite hv_line. auto.
  Qed.
  Lemma cont_turned h h' l : forall p s, clear_of (hline h h' s) p l -> continuity_pt (fun t => turned (hline h h' t) p l) s.
  Proof.
    induction l as [|q r IH]; intros p s H; cbn [turned clear_of] in *. { apply continuity_pt_const. intros ? ?; auto. }
    destruct H as [H1 H2]. apply (continuity_pt_plus (fun t => vang (hv (hline h h' t) p) (hv (hline h h' t) q)) (fun t => turned (hline h h' t) q r)); auto.
    apply cont_vang; auto using cont_hv.
  Qed.
  Lemma cont_winds h h' p l s : clears (hline h h' s) p l -> continuity_pt (fun t => winds (hline h h' t) p l) s.
  Proof.
    intros (H1 & H2 & H3). unfold winds.
    apply (continuity_pt_minus (fun t => turned (hline h h' t) p l + vang (hv (hline h h' t) (last l p)) d2) (fun t => vang (hv (hline h h' t) p) d1)).
    - apply (continuity_pt_plus (fun t => turned (hline h h' t) p l) (fun t => vang (hv (hline h h' t) (last l p)) d2)). { apply cont_turned; auto. }
      apply cont_vang; auto using cont_hv, cont_const2.
    - apply cont_vang; auto using cont_hv, cont_const2.
  Qed.
  Lemma hline_0 h h' : hline h h' 0 = h.
  Proof. destruct h as [a [b c]]. unfold hline. unv. apply f_equal2; [ring|apply pair_eq; ring]. Qed.
  Lemma hline_1 h h' : hline h h' 1 = h'.
  Proof. destruct h as [a [b c]], h' as [a' [b' c']]. unfold hline. unv. apply f_equal2; [ring|apply pair_eq; ring]. Qed.
  (** nothing changes while the point moves without meeting the chain *)
  Lemma winds_steady h h' p l : 0 < norm d1 -> (forall s, 0 <= s <= 1 -> clears (hline h h' s) p l) -> winds h' p l = winds h p l.
  Proof.
    intros N H. rewrite <- (hline_1 h h') at 1. rewrite <- (hline_0 h h') at 2.
    apply (steady (fun s => winds (hline h h' s) p l)). { intros s Hs. apply cont_winds; auto. }
    intros s Hs. cbv beta. apply winds_cs; auto. apply H. lra.
  Qed.
End Chain.

(** ** From positions to [clears] *)
Lemma ndot_nonneg u v : 0 <= ndot u v.
Proof.
  unfold ndot. pose proof (cauchy (smul (-1) u) v) as C. rewrite norm_opp in C. replace (dot (smul (-1) u) v) with (- dot u v) in C by (unv; ring). lra.
Qed.
Lemma ndot_off u v : (forall t, 0 <= t <= 1 -> vadd (smul (1 - t) u) (smul t v) <> (0, 0)) -> 0 < ndot u v.
Proof.
  intros H. destruct (ndot_nonneg u v) as [|E]; auto. exfalso. unfold ndot in E. pose proof (nn_sq u v) as Q.
  assert (C : cross u v = 0) by nra.
  assert (Nu : 0 < norm u). { apply norm_pos. intros ->. apply (H 0); [lra|]. unv. apply pair_eq; ring. }
  assert (Nv : 0 < norm v). { apply norm_pos. intros ->. apply (H 1); [lra|]. unv. apply pair_eq; ring. }
  pose proof (norm_sq u) as U2. assert (D : dot u v = - (norm u * norm v)) by lra.
  apply (H (norm u / (norm u + norm v))).
  { split. apply Rlt_le, Rdiv_lt_0_compat; lra. apply (Rmult_le_reg_r (norm u + norm v)); [lra|]. unfold Rdiv. rewrite Rmult_assoc, Rinv_l; lra. }
  set (n := norm u) in *. set (m := norm v) in *. clearbody n m. destruct u as [a b], v as [c d]. unv.
  assert (Ec : m * a + n * c = 0 /\ m * b + n * d = 0).
  { assert (n * (m * a + n * c) = 0). { replace (n * (m * a + n * c)) with (a * (m * n) + (n * n) * c) by ring. rewrite U2.
      replace (m * n) with (- (a * c + b * d)) by lra. replace (a * - (a * c + b * d) + (a * a + b * b) * c) with (- b * (a * d - b * c)) by ring. rewrite C. ring. }
    assert (n * (m * b + n * d) = 0). { replace (n * (m * b + n * d)) with (b * (m * n) + (n * n) * d) by ring. rewrite U2.
      replace (m * n) with (- (a * c + b * d)) by lra. replace (b * - (a * c + b * d) + (a * a + b * b) * d) with (a * (a * d - b * c)) by ring. rewrite C. ring. }
    apply Rmult_integral in H0. apply Rmult_integral in H1. lra. }
  destruct Ec as [E1 E2]. apply pair_eq.
  - replace ((1 - n / (n + m)) * a + n / (n + m) * c) with ((m * a + n * c) / (n + m)) by (field; lra). rewrite E1. unfold Rdiv. ring.
  - replace ((1 - n / (n + m)) * b + n / (n + m) * d) with ((m * b + n * d) / (n + m)) by (field; lra). rewrite E2. unfold Rdiv. ring.
Qed.
Definition fin (x : Pt) : hpt := (1, x).
Lemma off_seg a b x : ~ on_seg a b x -> 0 < ndot (hv (fin x) a) (hv (fin x) b).
Proof.
  intros H. apply ndot_off. intros t Ht E. apply H. exists t. split; auto. destruct a, b, x. unfold fin, hv in E. unv. injection E as E1 E2. apply pair_eq; lra.
Qed.
Lemma off_ray y d x : d <> (0, 0) -> (forall s, 0 <= s -> x <> vadd y (smul s d)) -> 0 < ndot (hv (fin x) y) d.
Proof.
  intros Hd H. apply ndot_off. intros t Ht E. destruct (Req_dec t 1) as [->|Hn].
  - apply Hd. rewrite <- E. destruct d. unv. apply pair_eq; ring.
  - apply (H (t / (1 - t))). { unfold Rdiv. apply Rmult_le_pos; try lra. apply Rlt_le, Rinv_0_lt_compat. lra. }
    destruct y as [y1 y2], d as [e1 e2], x as [x1 x2]. unfold fin, hv in E. unv. injection E as E1 E2. apply pair_eq; apply (Rmult_eq_reg_l (1 - t)); try lra.
    + replace ((1 - t) * (y1 + t / (1 - t) * e1)) with ((1 - t) * y1 + t * e1) by (field; lra). lra.
    + replace ((1 - t) * (y2 + t / (1 - t) * e2)) with ((1 - t) * y2 + t * e2) by (field; lra). lra.
Qed.
(** the segments of the chain *)
Fixpoint links (p : Pt) (l : list Pt) : list (Pt * Pt) := match l with [] => [] | q :: r => (p, q) :: links q r end.
Lemma off_links x l : forall p, (forall a b, In (a, b) (links p l) -> ~ on_seg a b x) -> clear_of (fin x) p l.
Proof. induction l as [|q r IH]; intros p H; cbn [clear_of links] in *; auto. split; [apply off_seg, H; left; auto|]. apply IH. intros. apply H. right; auto. Qed.
Lemma links_app l1 : forall p l2, links p (l1 ++ l2) = links p l1 ++ links (last l1 p) l2.
Proof. induction l1 as [|q r IH]; intros; cbn [links app]; auto. rewrite IH, last_cons. auto. Qed.
Lemma turned_app h l1 : forall p l2, turned h p (l1 ++ l2) = turned h p l1 + turned h (last l1 p) l2.
Proof. induction l1 as [|q r IH]; intros; cbn [turned app]; [cbn; ring|]. rewrite IH, last_cons. ring. Qed.
Lemma clear_app h l1 : forall p l2, clear_of h p (l1 ++ l2) <-> clear_of h p l1 /\ clear_of h (last l1 p) l2.
Proof. induction l1 as [|q r IH]; intros; cbn [clear_of app]; [cbn; tauto|]. rewrite IH, last_cons. tauto. Qed.
Lemma cont_eps f s e : continuity_pt f s -> 0 < e -> exists r, 0 < r /\ forall t, Rabs (t - s) < r -> Rabs (f t - f s) < e.
Proof.
  intros H He. destruct (H e He) as (r & Hr & B). exists r. split; auto. intros t Ht. destruct (Req_dec t s) as [->|Hn].
  - rewrite Rminus_diag_eq by auto. rewrite Rabs_R0. auto.
  - apply B. split; auto. split; [exact I|]. intros E; apply Hn; auto.
Qed.

Section Order.
  Variables (k p : Pt) (l : list Pt).
  Let y1 := p.
  Let y2 := last l p.
  Let d1 := vsub y1 k.
  Let d2 := vsub y2 k.
  Hypothesis N1 : d1 <> (0, 0).
  Hypothesis N2 : d2 <> (0, 0).
  Definition wx (x : Pt) : R := winds d1 d2 (fin x) p l.
  Definition free (x : Pt) : Prop := clears d1 d2 (fin x) p l.

  Lemma free_off x : (forall a b, In (a, b) (links p l) -> ~ on_seg a b x) -> (forall s, 0 <= s -> x <> vadd y1 (smul s d1)) ->
    (forall s, 0 <= s -> x <> vadd y2 (smul s d2)) -> free x.
  Proof. intros H1 H2 H3. split; [apply off_links; auto|]. split; apply off_ray; auto. Qed.
  Lemma fin_line x x' s : hline (fin x) (fin x') s = fin (along x x' s).
  Proof. unfold hline, fin. cbn [fst snd]. apply f_equal2; [ring|auto]. Qed.
  Lemma wx_cs x x' : free x -> free x' -> cos (wx x) = cos (wx x') /\ sin (wx x) = sin (wx x').
  Proof. intros H H'. apply winds_cs; auto. apply norm_pos; auto. Qed.
  Lemma wx_steady x x' : (forall z, on_seg x x' z -> free z) -> wx x' = wx x.
  Proof. intros H. apply winds_steady; [apply norm_pos; auto|]. intros s Hs. rewrite fin_line. apply H. exists s. auto. Qed.

  Lemma hv_scale s a b h : hv (s * a, smul s b) h = smul s (hv (a, b) h).
  Proof. unfold hv. unv. apply pair_eq; ring. Qed.
  Lemma clear_scale s h q : 0 < s -> forall l p, clear_of (h, q) p l -> clear_of (s * h, smul s q) p l.
  Proof.
    intros Hs l'. induction l' as [|b r IH]; intros p'; cbn [clear_of]; auto. intros [H1 H2]. split; auto.
    rewrite !hv_scale, ndot_smul by auto. apply Rmult_lt_0_compat; auto. nra.
  Qed.
  Definition far_value (d : Pt) : R := vang (smul (-1) d) d2 - vang (smul (-1) d) d1.
  Lemma smul_1 (q : Pt) : smul 1 q = q.
  Proof. destruct q. unv. apply pair_eq; ring. Qed.
  Lemma ndot_scale s u v : 0 < s -> 0 < ndot u v -> 0 < ndot (smul s u) v.
  Proof. intros Hs H. rewrite <- (smul_1 v), ndot_smul by lra. apply Rmult_lt_0_compat; lra. Qed.
  (** seen from far away in direction d *)
  Lemma wx_far y d : d <> (0, 0) -> 0 < ndot (smul (-1) d) d1 -> 0 < ndot (smul (-1) d) d2 ->
    (forall t, 1 <= t -> free (vadd y (smul t d))) -> wx (vadd y d) = far_value d.
  Proof.
    intros Nd P1 P2 F. symmetry.
    transitivity (winds d1 d2 (0, d) p l).
    - unfold winds. assert (E : forall a, hv (0, d) a = smul (-1) d) by (intros a; unfold hv; unv; apply pair_eq; ring).
      assert (Z : forall l' p', turned (0, d) p' l' = 0). { induction l' as [|b r IH]; intros p'; cbn [turned]; auto. rewrite !E, vang_self, IH. ring. }
      rewrite Z, !E. unfold far_value. ring.
    - unfold wx. apply (winds_steady d1 d2 (fin (vadd y d)) (0, d)); [apply norm_pos; auto|]. intros s Hs.
      destruct (Req_dec s 1) as [->|Hn].
      + rewrite hline_1. assert (E : forall a, hv (0, d) a = smul (-1) d) by (intros a; unfold hv; unv; apply pair_eq; ring).
        assert (P : 0 < ndot (smul (-1) d) (smul (-1) d)).
        { unfold ndot. rewrite norm_sq. assert (0 < norm (smul (-1) d)) by (rewrite norm_opp; apply norm_pos; auto). pose proof (norm_sq (smul (-1) d)) as Q. unfold norm2 in *. nra. }
        split; [|rewrite !E; split; auto]. clear - E P. generalize p. induction l as [|b r IH]; intros p'; cbn [clear_of]; auto. rewrite !E. auto.
      + assert (Hp : 0 < 1 - s) by lra. destruct (F (1 / (1 - s))) as (F1 & F2 & F3).
        { apply (Rmult_le_reg_r (1 - s)); auto. unfold Rdiv. rewrite Rmult_assoc, Rinv_l; lra. }
        assert (E : hline (fin (vadd y d)) (0, d) s = ((1 - s) * 1, smul (1 - s) (vadd y (smul (1 / (1 - s)) d)))).
        { unfold hline, fin. unv. apply f_equal2; [ring|]. apply pair_eq; field; lra. }
        rewrite E. split; [apply clear_scale; auto|]. rewrite !hv_scale. split; apply ndot_scale; auto.
  Qed.

  Lemma on_edge_wide a c m d : (exists s, 0 < s < 1 /\ m = along a c s) -> a <> c -> 
    exists r, 0 < r /\ forall t, Rabs t < r -> dot (vsub a (vadd m (smul t d))) (vsub c (vadd m (smul t d))) < 0.
  Proof.
    intros (s & Hs & ->) Hac.
    assert (Ha : 0 < norm2 (vsub c a)). { rewrite <- norm_sq. assert (0 < norm (vsub c a)); [|nra]. apply norm_pos. intros E. apply Hac. destruct a, c. unv. injection E as E1 E2. apply pair_eq; lra. }
    set (f := fun t => dot (vsub a (vadd (along a c s) (smul t d))) (vsub c (vadd (along a c s) (smul t d)))).
    assert (Ef : forall t, f t = - (s * (1 - s)) * norm2 (vsub c a) + t * ((2 * s - 1) * dot (vsub c a) d) + t * t * norm2 d).
    { intros u. unfold f. destruct a, c, d. unv. ring. }
    assert (C : continuity_pt f 0).
    { refine (continuity_pt_locally_ext (fun t => (- (s * (1 - s)) * norm2 (vsub c a) + t * ((2 * s - 1) * dot (vsub c a) d)) + (0 + t * 1) * (0 + t * norm2 d)) _ 1 0 Rlt_0_1 _ _).
      - intros u _. rewrite Ef. ring.
      - apply (continuity_pt_plus (fun t => - (s * (1 - s)) * norm2 (vsub c a) + t * ((2 * s - 1) * dot (vsub c a) d)) (fun t => (0 + t * 1) * (0 + t * norm2 d))). apply cont_lin.
        apply (continuity_pt_mult (fun t => 0 + t * 1) (fun t => 0 + t * norm2 d)); apply cont_lin. }
    destruct (cont_eps f 0 (s * (1 - s) * norm2 (vsub c a)) C) as (r & Hr & B). { apply Rmult_lt_0_compat; auto. nra. }
    exists r. split; auto. intros u Hu. specialize (B u). rewrite Rminus_0_r in B. specialize (B Hu). apply Rabs_def2 in B. rewrite (Ef 0) in B. change (f u < 0). lra.
  Qed.
  (** crossing an edge of the chain from its right to its left adds a full turn *)
  Lemma wx_jump m d a c l1 l2 : l = l1 ++ c :: l2 -> last l1 p = a -> (exists s, 0 < s < 1 /\ m = along a c s) -> cross (vsub c a) d < 0 ->
    clear_of (fin m) p l1 -> clear_of (fin m) c l2 -> 0 < ndot (hv (fin m) p) d1 -> 0 < ndot (hv (fin m) y2) d2 ->
    (exists r, 0 < r /\ forall t, 0 < t < r -> free (vadd m (smul t d)) /\ free (vsub m (smul t d))) ->
    exists r, 0 < r /\ forall t, 0 < t < r -> wx (vsub m (smul t d)) = wx (vadd m (smul t d)) + 2 * PI.
  Proof.
    intros El Ea Hm Hd C1 C2 P1 P2 (r0 & Hr0 & F).
    assert (Nac : a <> c). { intros ->. replace (cross (vsub c c) d) with 0 in Hd by (unv; ring). lra. }
    set (H := fun t => hline (fin m) (fin (vadd m d)) t).
    assert (HE : forall t, H t = fin (vadd m (smul t d))). { intros t. unfold H. rewrite fin_line. f_equal. unv. apply pair_eq; ring. }
    set (G := fun t => turned (H t) p l1 + turned (H t) c l2 + vang (hv (H t) y2) d2 - vang (hv (H t) p) d1).
    assert (H0 : hline (fin m) (fin (vadd m d)) 0 = fin m) by apply hline_0.
    assert (CG : continuity_pt G 0).
    { unfold G, H.
      apply (continuity_pt_minus (fun t => turned (hline (fin m) (fin (vadd m d)) t) p l1 + turned (hline (fin m) (fin (vadd m d)) t) c l2 + vang (hv (hline (fin m) (fin (vadd m d)) t) y2) d2)
               (fun t => vang (hv (hline (fin m) (fin (vadd m d)) t) p) d1)).
      2:{ apply cont_vang; auto using cont_hv, cont_const2. rewrite H0. auto. }
      apply (continuity_pt_plus (fun t => turned (hline (fin m) (fin (vadd m d)) t) p l1 + turned (hline (fin m) (fin (vadd m d)) t) c l2) (fun t => vang (hv (hline (fin m) (fin (vadd m d)) t) y2) d2)).
      2:{ apply cont_vang; auto using cont_hv, cont_const2. rewrite H0. auto. }
      apply (continuity_pt_plus (fun t => turned (hline (fin m) (fin (vadd m d)) t) p l1) (fun t => turned (hline (fin m) (fin (vadd m d)) t) c l2)); apply cont_turned; rewrite H0; auto. }
    pose proof PI_RGT_0 as PP.
    destruct (cont_eps G 0 (PI / 2) CG) as (r1 & Hr1 & B1). lra.
    destruct (on_edge_wide a c m d Hm Nac) as (r2 & Hr2 & B2).
    exists (Rmin r0 (Rmin r1 r2)). split. { repeat apply Rmin_glb_lt; auto. }
    intros t Ht. assert (t < r0) by (eapply Rlt_le_trans; [apply Ht|apply Rmin_l]).
    assert (t < r1 /\ t < r2) as [L1 L2]. { split; (eapply Rlt_le_trans; [apply Ht|]); (eapply Rle_trans; [apply Rmin_r|]); [apply Rmin_l|apply Rmin_r]. }
    destruct (F t) as [Fp Fm]. lra.
    assert (Em : vsub m (smul t d) = vadd m (smul (- t) d)) by (unv; apply pair_eq; ring). rewrite Em in *.
    assert (W : forall u, wx (vadd m (smul u d)) = G u + vang (vsub a (vadd m (smul u d))) (vsub c (vadd m (smul u d)))).
    { intros u. unfold wx, winds, G. rewrite HE. fold y2. subst a. rewrite El at 1. rewrite turned_app. cbn [turned].
      replace (hv (fin (vadd m (smul u d))) (last l1 p)) with (vsub (last l1 p) (vadd m (smul u d))) by (unfold hv, fin; unv; apply pair_eq; ring).
      replace (hv (fin (vadd m (smul u d))) c) with (vsub c (vadd m (smul u d))) by (unfold hv, fin; unv; apply pair_eq; ring). ring. }
    assert (X : forall u, cross (vsub a (vadd m (smul u d))) (vsub c (vadd m (smul u d))) = u * cross (vsub c a) d).
    { intros u. destruct Hm as (s & _ & ->). unv. ring. }
    assert (Pn : forall u, free (vadd m (smul u d)) -> 0 < ndot (vsub a (vadd m (smul u d))) (vsub c (vadd m (smul u d)))).
    { intros u (Fu & _). rewrite El in Fu. apply clear_app in Fu. destruct Fu as [_ Fu]. cbn [clear_of] in Fu. destruct Fu as [Fu _]. rewrite Ea in Fu.
      replace (hv (fin (vadd m (smul u d))) a) with (vsub a (vadd m (smul u d))) in Fu by (unfold hv, fin; unv; apply pair_eq; ring).
      replace (hv (fin (vadd m (smul u d))) c) with (vsub c (vadd m (smul u d))) in Fu by (unfold hv, fin; unv; apply pair_eq; ring). auto. }
    assert (A1 : PI / 2 < vang (vsub a (vadd m (smul (- t) d))) (vsub c (vadd m (smul (- t) d)))).
    { apply vang_wide; auto. apply B2. rewrite Rabs_left; lra. rewrite X. nra. }
    assert (A2 : vang (vsub a (vadd m (smul t d))) (vsub c (vadd m (smul t d))) < - (PI / 2)).
    { rewrite vang_anti. apply Ropp_lt_contravar. apply vang_wide; [rewrite ndot_sym; auto| |].
      - replace (dot (vsub c (vadd m (smul t d))) (vsub a (vadd m (smul t d)))) with (dot (vsub a (vadd m (smul t d))) (vsub c (vadd m (smul t d)))) by (unv; ring).
        apply B2. rewrite Rabs_right; lra.
      - rewrite cross_anti, X. nra. }
    pose proof (vang_bound (vsub a (vadd m (smul (- t) d))) (vsub c (vadd m (smul (- t) d)))). pose proof (vang_bound (vsub a (vadd m (smul t d))) (vsub c (vadd m (smul t d)))).
    assert (G1 : Rabs (G t - G 0) < PI / 2) by (apply B1; rewrite Rminus_0_r, Rabs_right; lra).
    assert (G2 : Rabs (G (- t) - G 0) < PI / 2) by (apply B1; rewrite Rminus_0_r, Rabs_left; lra).
    apply Rabs_def2 in G1, G2. destruct (wx_cs _ _ Fm Fp) as [Cc Cs].
    apply cs_eq; [rewrite cos_plus, cos_2PI, sin_2PI; lra|rewrite sin_plus, cos_2PI, sin_2PI; lra|].
    apply Rabs_def1; rewrite !W; lra.
  Qed.
End Order.

(** [d] lies in the open sector swept counter-clockwise from [d1] to [d2] *)
Definition between (d1 d2 d : Pt) : Prop :=
  (0 < cross d1 d2 -> 0 < cross d1 d /\ 0 < cross d d2) /\ (cross d1 d2 <= 0 -> 0 < cross d1 d \/ 0 < cross d d2).

Lemma far_sin k p l d : vsub p k <> (0, 0) -> vsub (last l p) k <> (0, 0) ->
  0 < ndot (smul (-1) d) (vsub p k) -> 0 < ndot (smul (-1) d) (vsub (last l p) k) ->
  0 < cross (vsub p k) (vsub (last l p) k) -> 0 < sin (far_value k p l d).
Proof.
  intros N1 N2 P1 P2 C. unfold far_value. set (d1 := vsub p k) in *. set (d2 := vsub (last l p) k) in *.
  assert (E : rotv (vang (smul (-1) d) d2 - vang (smul (-1) d) d1) (unit d1) = unit d2).
  { unfold Rminus. rewrite <- vang_anti, rotv_add, vang_turns by (rewrite ndot_sym; auto). apply vang_turns; auto. }
  pose proof (unit_sq d1 (norm_pos _ N1)) as U. set (t := vang (smul (-1) d) d2 - vang (smul (-1) d) d1) in *.
  assert (S1 : sin t = cross (unit d1) (unit d2)).
  { rewrite <- E. destruct (unit d1) as [a b]. unfold rotv. unv. replace (a * (sin t * a + cos t * b) - b * (cos t * a - sin t * b)) with (sin t * (a * a + b * b)) by ring. rewrite U. ring. }
  rewrite S1. unfold unit. replace (cross (smul (/ norm d1) d1) (smul (/ norm d2) d2)) with (/ norm d1 * / norm d2 * cross d1 d2) by (unv; ring).
  pose proof (norm_pos _ N1). pose proof (norm_pos _ N2). apply Rmult_lt_0_compat; auto. apply Rmult_lt_0_compat; apply Rinv_0_lt_compat; auto.
Qed.
Lemma far_between k p l d3 d4 : vsub p k <> (0, 0) -> vsub (last l p) k <> (0, 0) ->
  0 < ndot (smul (-1) d3) (vsub p k) -> 0 < ndot (smul (-1) d3) (vsub (last l p) k) ->
  far_value k p l d4 = far_value k p l d3 + 2 * PI -> between (vsub p k) (vsub (last l p) k) d3.
Proof.
  intros N1 N2 P1 P2 E. pose proof PI_RGT_0 as PP.
  assert (L4 : far_value k p l d4 < 2 * PI).
  { unfold far_value. pose proof (vang_bound (smul (-1) d4) (vsub (last l p) k)). pose proof (vang_bound (smul (-1) d4) (vsub p k)). lra. }
  assert (L3 : - (2 * PI) < far_value k p l d3 < 0).
  { split; [|lra]. unfold far_value. pose proof (vang_bound (smul (-1) d3) (vsub (last l p) k)). pose proof (vang_bound (smul (-1) d3) (vsub p k)). lra. }
  pose proof (far_sin k p l d3 N1 N2 P1 P2) as S1. unfold far_value in *. set (d1 := vsub p k) in *. set (d2 := vsub (last l p) k) in *.
  pose proof (vang_bound (smul (-1) d3) d2) as B2. pose proof (vang_bound (smul (-1) d3) d1) as B1.
  assert (X1 : cross d1 d3 = cross (smul (-1) d3) d1) by (unv; ring). assert (X2 : cross d3 d2 = - cross (smul (-1) d3) d2) by (unv; ring).
  pose proof (vang_pos _ _ P1) as V1. pose proof (vang_neg _ _ P2) as V2.
  set (al := vang (smul (-1) d3) d2) in *. set (be := vang (smul (-1) d3) d1) in *.
  split; intros C.
  - specialize (S1 C). assert (Lp : al - be < - PI).
    { apply Rnot_le_lt. intros Hn. assert (sin (al - be) <= 0); [|lra]. replace (al - be) with (- (be - al)) by ring. rewrite sin_neg.
      assert (0 <= sin (be - al)) by (apply sin_ge_0; lra). lra. }
    split; [rewrite X1; apply V1; lra|]. rewrite X2. assert (cross (smul (-1) d3) d2 < 0) by (apply V2; lra). lra.
  - destruct (Rlt_dec 0 be) as [L|L]. { left. rewrite X1. apply V1; auto. } right. rewrite X2. assert (cross (smul (-1) d3) d2 < 0) by (apply V2; lra). lra.
Qed.
