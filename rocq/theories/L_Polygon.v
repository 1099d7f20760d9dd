(** Lemmas about Polygon: unwrapped angles, extreme directions, turns. *)
From Coq Require Import Reals Lra Lia List Bool Arith ZArith Psatz.
From Verif Require Import Num Spec M_Cg M_ConePolygon M_Motion M_Obstacle M_Polygon L_Geom L_Polar L_Cg L_Atan2 L_Gen L_Obstacle L_Ellipse.
Import ListNotations.
Open Scope R_scope.

Lemma circular_closed v : circular v = closed_chain v.
Proof. reflexivity. Qed.

Lemma F2_length {A B} (P : A -> B -> Prop) l l' : Forall2 P l l' -> length l = length l'.
Proof. induction 1; cbn; congruence. Qed.
Lemma F2_impl {A B} (P Q : A -> B -> Prop) l l' : (forall a b, P a b -> Q a b) -> Forall2 P l l' -> Forall2 Q l l'.
Proof. induction 2; constructor; auto. Qed.

(** *** angles *)
Lemma sees_ne x p t : sees x p t -> vsub p x <> (0, 0).
Proof. intros (r & Hr & ->). apply polar_nonzero. exact Hr. Qed.
Lemma angle_to_sees x p : p <> x -> sees x p (angle_to x p) /\ 0 <= angle_to x p < 2 * PI.
Proof.
  intros N. set (u := vsub p x). assert (U : u <> (0, 0)).
  { intros Z. apply N. destruct p, x. unfold u, vsub in Z. cbn in Z. injection Z as Z1 Z2. apply pair_eq; lra. }
  pose proof (norm_pos u U) as UP. pose proof (arctan2_polar (fst u) (snd u)) as E. pose proof (arctan2_bound (fst u) (snd u)) as B.
  replace (fst u, snd u) with u in E by (destruct u; reflexivity). pose proof PI_RGT_0.
  unfold angle_to. cbv zeta. change (snd p - snd x) with (snd u). change (fst p - fst x) with (fst u).
  destruct (Rltb_spec (arctan2 (snd u) (fst u)) 0).
  - split; [|lra]. exists (norm u). split; [exact UP|]. rewrite polar_shift. exact E.
  - split; [|lra]. exists (norm u). split; [exact UP|]. exact E.
Qed.
Lemma same_dir r r' s t : 0 < r -> 0 < r' -> polar r s = polar r' t -> exists k : Z, s = t + 2 * PI * IZR k.
Proof.
  intros R1 R2 E. pose proof (norm_polar r s ltac:(lra)) as N1. pose proof (norm_polar r' t ltac:(lra)) as N2.
  rewrite E, N2 in N1. subst r'. injection E as E1 E2. apply Rmult_eq_reg_l in E1; [|lra]. apply Rmult_eq_reg_l in E2; [|lra].
  assert (C : cos (s - t) = 1).
  { rewrite cos_minus, E1, E2. pose proof (sin2_cos2 t) as S. unfold Rsqr in S. lra. }
  assert (S : sin ((s - t) / 2) = 0).
  { replace (s - t) with (2 * ((s - t) / 2)) in C by field. rewrite cos_2a_sin in C. nra. }
  apply sin_eq_0_0 in S. destruct S as (k & K). exists k. lra.
Qed.
Lemma sees_mod x p s t : sees x p s -> sees x p t -> exists k : Z, s = t + 2 * PI * IZR k.
Proof. intros (r & R1 & E1) (r' & R2 & E2). rewrite E1 in E2. exact (same_dir r r' s t R1 R2 E2). Qed.

Lemma z_unique (k : Z) y : y = 2 * PI * IZR k -> - (2 * PI) < y < 2 * PI -> y = 0.
Proof.
  intros E B. pose proof PI_RGT_0. assert (-1 < IZR k < 1) by (split; nra).
  assert (k = 0)%Z. { assert (-1 < k)%Z by (apply lt_IZR; lra). assert (k < 1)%Z by (apply lt_IZR; lra). lia. }
  subst k. rewrite E. ring.
Qed.

(** the unwrapped angles follow any continuous choice of angles *)
Lemma unwrap_lift x ps : forall p t ts off, sees x p t -> Forall2 (sees x) ps ts -> small_steps (t :: ts) ->
  unwrap off (angle_to x p) (map (angle_to x) ps) = map (fun s => s + (angle_to x p + off - t)) ts.
Proof.
  induction ps as [|q ps IH]; intros p t ts off Sp F St; inversion F; subst; [reflexivity|].
  rename y into s. rename l' into ss. rename H1 into Sq. rename H3 into F'. destruct St as [Hs St].
  assert (Np : p <> x) by (intros ->; apply (sees_ne _ _ _ Sp); destruct x; unfold vsub; cbn; apply pair_eq; ring).
  assert (Nq : q <> x) by (intros ->; apply (sees_ne _ _ _ Sq); destruct x; unfold vsub; cbn; apply pair_eq; ring).
  destruct (angle_to_sees x p Np) as [Ap Bp]. destruct (angle_to_sees x q Nq) as [Aq Bq].
  destruct (sees_mod _ _ _ _ Ap Sp) as [kp Kp]. destruct (sees_mod _ _ _ _ Aq Sq) as [kq Kq].
  cbn [map unwrap]. cbv zeta.
  set (A := angle_to x p) in *. set (B := angle_to x q) in *. pose proof PI_RGT_0 as PP.
  apply Rabs_def2 in Hs.
  assert (D : forall c : Z, - (2 * PI) < (B - A) + 2 * PI * IZR c - (s - t) < 2 * PI -> (B - A) + 2 * PI * IZR c = s - t).
  { intros c Hc. assert (Z : (B - A) + 2 * PI * IZR c - (s - t) = 2 * PI * IZR (kq - kp + c)).
    { rewrite plus_IZR, minus_IZR. lra. }
    apply z_unique in Z; lra. }
  set (off' := if Rltb PI (B - A) then off - 2 * PI else if Rltb (B - A) (- PI) then off + 2 * PI else off).
  assert (E : B + off' = s + (A + off - t)).
  { unfold off'. destruct (Rltb_spec PI (B - A)).
    - specialize (D (-1)%Z). lra.
    - destruct (Rltb_spec (B - A) (- PI)); [specialize (D 1%Z)|specialize (D 0%Z)]; lra. }
  f_equal; [exact E|]. unfold B. rewrite (IH q s ss off' Sq F' St). fold B.
  apply map_ext. intros y. lra.
Qed.
Lemma unwrapped_lift x ps ts : Forall2 (sees x) ps ts -> small_steps ts ->
  exists c, unwrapped (map (angle_to x) ps) = map (fun s => s + c) ts.
Proof.
  intros F St. destruct F as [|p t ps ts Sp F]; [exists 0; reflexivity|].
  exists (angle_to x p - t). cbn [map unwrapped]. rewrite (unwrap_lift x ps p t ts 0 Sp F St). f_equal; [lra|].
  apply map_ext. intros. lra.
Qed.

(** *** argmax, argmin *)
Lemma arg_ext_spec (f : R -> R) better : (forall a b, better a b = Rltb (f b) (f a)) ->
  forall l pre best ib, (ib < length pre)%nat -> nth ib pre 0 = best ->
  (forall j, (j < length pre)%nat -> f (nth j pre 0) <= f best /\ ((j < ib)%nat -> f (nth j pre 0) < f best)) ->
  let i := arg_ext better best ib (length pre) l in
  (i < length (pre ++ l))%nat /\ forall j, (j < length (pre ++ l))%nat ->
    f (nth j (pre ++ l) 0) <= f (nth i (pre ++ l) 0) /\ ((j < i)%nat -> f (nth j (pre ++ l) 0) < f (nth i (pre ++ l) 0)).
Proof.
  intros Hb. induction l as [|y l IH]; intros pre best ib Hi E Q; cbn [arg_ext].
  - rewrite app_nil_r. split; [exact Hi|]. intros j Hj. rewrite E. apply Q. exact Hj.
  - replace (pre ++ y :: l) with ((pre ++ [y]) ++ l) by (rewrite <- app_assoc; reflexivity).
    replace (S (length pre)) with (length (pre ++ [y])) by (rewrite app_length; cbn; lia).
    rewrite Hb. destruct (Rltb_spec (f best) (f y)).
    + apply IH.
      * rewrite app_length. cbn. lia.
      * rewrite app_nth2, Nat.sub_diag by lia. reflexivity.
      * intros j Hj. rewrite app_length in Hj. cbn in Hj. destruct (Nat.lt_ge_cases j (length pre)) as [L|L].
        -- rewrite app_nth1 by exact L. destruct (Q j L). split; intros; lra.
        -- replace j with (length pre) by lia. rewrite app_nth2, Nat.sub_diag by lia. cbn. split; intros; [lra|lia].
    + apply IH.
      * rewrite app_length. cbn. lia.
      * rewrite app_nth1 by exact Hi. exact E.
      * intros j Hj. rewrite app_length in Hj. cbn in Hj. destruct (Nat.lt_ge_cases j (length pre)) as [L|L].
        -- rewrite app_nth1 by exact L. apply Q. exact L.
        -- replace j with (length pre) by lia. rewrite app_nth2, Nat.sub_diag by lia. cbn. split; intros; [lra|lia].
Qed.
Lemma argmax_spec l : l <> [] -> first_max l (argmax l).
Proof.
  destruct l as [|y l]; [congruence|]. intros _. unfold argmax, first_max.
  apply (arg_ext_spec (fun u => u) (fun a b => Rltb b a) (fun a b => eq_refl) l [y] y 0%nat); [cbn; lia|reflexivity|].
  intros j Hj. cbn in Hj. replace j with 0%nat by lia. cbn. split; intros; [lra|lia].
Qed.
Lemma argmin_spec l : l <> [] -> first_min l (argmin l).
Proof.
  destruct l as [|y l]; [congruence|]. intros _. unfold argmin, first_min.
  destruct (arg_ext_spec (fun u => - u) (fun a b => Rltb a b)) with (l := l) (pre := [y]) (best := y) (ib := 0%nat) as [A B].
  - intros a b. destruct (Rltb_spec a b), (Rltb_spec (- b) (- a)); auto; lra.
  - cbn; lia.
  - reflexivity.
  - intros j Hj. cbn in Hj. replace j with 0%nat by lia. cbn. split; intros; [lra|lia].
  - cbn [length app] in A, B. split; [exact A|]. intros j Hj. destruct (B j Hj) as [P Q]. cbn [length]. split; [lra|]. intros L. specialize (Q L). lra.
Qed.
Lemma first_max_shift l c i : first_max (map (fun s => s + c) l) i -> first_max l i.
Proof.
  intros [A B]. rewrite map_length in *. split; [exact A|]. intros j Hj. specialize (B j Hj).
  rewrite !(nth_indep (map _ _) 0 (0 + c)), !(map_nth (fun s => s + c)) in B by (rewrite map_length; lia). destruct B as [P Q]. split; [lra|].
  intros L. specialize (Q L). lra.
Qed.
Lemma first_min_shift l c i : first_min (map (fun s => s + c) l) i -> first_min l i.
Proof.
  intros [A B]. rewrite map_length in *. split; [exact A|]. intros j Hj. specialize (B j Hj).
  rewrite !(nth_indep (map _ _) 0 (0 + c)), !(map_nth (fun s => s + c)) in B by (rewrite map_length; lia). destruct B as [P Q]. split; [lra|].
  intros L. specialize (Q L). lra.
Qed.
Lemma nth_shift l c i : (i < length l)%nat -> nth i (map (fun s => s + c) l) 0 = nth i l 0 + c.
Proof. intros H. rewrite (nth_indep _ 0 (0 + c)), (map_nth (fun s => s + c)) by (rewrite map_length; exact H). reflexivity. Qed.
Lemma last_nth {A} (l : list A) d : last l d = nth (length l - 1) l d.
Proof.
  induction l as [|a l IH]; [reflexivity|]. destruct l as [|b l]; [reflexivity|].
  change (last (a :: b :: l) d) with (last (b :: l) d). rewrite IH. cbn [length]. replace (S (S (length l)) - 1)%nat with (S (S (length l) - 1))%nat by lia. reflexivity.
Qed.

(** *** existence of a continuous choice of angles *)
Lemma step_off_edge x p q t : sees x p t -> q <> x -> ~ on_seg p q x -> exists s, sees x q s /\ Rabs (s - t) < PI.
Proof.
  intros (r & Hr & E) N S. set (u := vsub q x). assert (U : u <> (0, 0)).
  { intros Z. apply N. destruct q, x. unfold u, vsub in Z. cbn in Z. injection Z as Z1 Z2. apply pair_eq; lra. }
  pose proof (norm_pos u U) as UP. destruct (polar_from (t - PI) u U) as (s & B & P).
  exists s. split; [exists (norm u); auto|]. apply Rabs_def1; [lra|].
  destruct (Req_dec s (t - PI)) as [Z|Z]; [|lra]. exfalso. apply S.
  exists (r / (r + norm u)). split.
  - split; [left; apply Rdiv_lt_0_compat; lra|]. apply Rmult_le_reg_r with (r + norm u); [lra|].
    replace (r / (r + norm u) * (r + norm u)) with r by (field; lra). lra.
  - assert (P1 : fst q - fst x = norm u * cos s) by (apply (f_equal fst) in P; exact P).
    assert (P2 : snd q - snd x = norm u * sin s) by (apply (f_equal snd) in P; exact P).
    assert (E1 : fst p - fst x = r * cos t) by (apply (f_equal fst) in E; exact E).
    assert (E2 : snd p - snd x = r * sin t) by (apply (f_equal snd) in E; exact E).
    rewrite Z, cos_minus, cos_PI, sin_PI in P1. rewrite Z, sin_minus, cos_PI, sin_PI in P2. set (n := norm u) in *. clearbody n. clear P.
    destruct p as [p1 p2], q as [q1 q2], x as [x1 x2]. cbn [fst snd] in *. unfold along, vadd, smul, vsub. cbn [fst snd].
    replace p1 with (x1 + r * cos t) by lra. replace p2 with (x2 + r * sin t) by lra.
    replace q1 with (x1 - n * cos t) by lra. replace q2 with (x2 - n * sin t) by lra. apply pair_eq; field; lra.
Qed.
Lemma step_ccw x p q t : sees x p t -> 0 < area2 x p q -> exists s, sees x q s /\ t < s < t + PI.
Proof.
  intros (r & Hr & E) S. unfold area2 in S. set (u := vsub q x) in *. rewrite E in S.
  assert (U : u <> (0, 0)) by (intros Z; rewrite Z in S; unfold cross in S; cbn in S; lra).
  pose proof (norm_pos u U) as UP. destruct (polar_from t u U) as (s & B & P).
  exists s. split; [exists (norm u); auto|]. rewrite P, cross_polar in S.
  assert (0 < sin (s - t)). { apply Rmult_lt_reg_l with (r * norm u); [nra|]. lra. }
  pose proof PI_RGT_0. pose proof (sin_sign_pos (s - t) ltac:(lra) H). lra.
Qed.
Lemma step_cw x p q t : sees x p t -> area2 x p q < 0 -> exists s, sees x q s /\ t - PI < s < t.
Proof.
  intros (r & Hr & E) S. unfold area2 in S. set (u := vsub q x) in *. rewrite E in S.
  assert (U : u <> (0, 0)) by (intros Z; rewrite Z in S; unfold cross in S; cbn in S; lra).
  pose proof (norm_pos u U) as UP. pose proof PI_RGT_0. destruct (polar_from (t - 2 * PI) u U) as (s & B & P).
  exists s. split; [exists (norm u); auto|]. rewrite P, cross_polar in S.
  assert (W : 0 < sin (t - s)). { apply Rmult_lt_reg_l with (r * norm u); [nra|]. replace (t - s) with (- (s - t)) by ring. rewrite sin_neg. lra. }
  assert (t - s <> 2 * PI). { intros Z. rewrite Z, sin_2PI in W. lra. }
  pose proof (sin_sign_pos (t - s) ltac:(lra) W). lra.
Qed.
Fixpoint chained (Q : Pt -> Pt -> Prop) (l : list Pt) : Prop :=
  match l with p :: ((q :: _) as r) => Q p q /\ chained Q r | _ => True end.
Fixpoint steps (Q : R -> R -> Prop) (l : list R) : Prop :=
  match l with p :: ((q :: _) as r) => Q p q /\ steps Q r | _ => True end.
Lemma lift_exists (Q : Pt -> Pt -> Prop) (S : R -> R -> Prop) x :
  (forall p q t, sees x p t -> Q p q -> exists s, sees x q s /\ S t s) ->
  forall l p t, sees x p t -> chained Q (p :: l) -> exists ts, Forall2 (sees x) l ts /\ steps S (t :: ts).
Proof.
  intros H. induction l as [|q l IH]; intros p t Sp C.
  - exists []. split; [constructor|exact I].
  - destruct C as [C1 C2]. destruct (H p q t Sp C1) as (s & Sq & St). destruct (IH q s Sq C2) as (ts & F & K).
    exists (s :: ts). split; [constructor; assumption|]. split; assumption.
Qed.
Lemma steps_small (S : R -> R -> Prop) l : (forall t s, S t s -> Rabs (s - t) < PI) -> steps S l -> small_steps l.
Proof.
  intros H. induction l as [|a l IH]; [auto|]. destruct l as [|b l]; [auto|]. intros [P Q]. split; [apply H; exact P|apply IH; exact Q].
Qed.
Lemma steps_up l : forall a, steps (fun t s => t < s < t + PI) (a :: l) -> l <> [] -> a < last l 0.
Proof.
  induction l as [|b l IH]; intros a H N; [congruence|]. destruct H as [P Q]. destruct l as [|c l]; [cbn; lra|].
  change (last (b :: c :: l) 0) with (last (c :: l) 0). specialize (IH b Q ltac:(discriminate)). lra.
Qed.
Lemma steps_down l : forall a, steps (fun t s => t - PI < s < t) (a :: l) -> l <> [] -> last l 0 < a.
Proof.
  induction l as [|b l IH]; intros a H N; [congruence|]. destruct H as [P Q]. destruct l as [|c l]; [cbn; lra|].
  change (last (b :: c :: l) 0) with (last (c :: l) 0). specialize (IH b Q ltac:(discriminate)). lra.
Qed.
Lemma chained_edges (Q : Pt -> Pt -> Prop) l : forall a e, (forall p q, In (p, q) (combine (a :: l) (l ++ [e])) -> Q p q) -> chained Q (a :: l ++ [e]).
Proof.
  induction l as [|b l IH]; intros a e H; cbn.
  - split; [apply H; left; reflexivity|exact I].
  - split; [apply H; left; reflexivity|]. apply IH. intros p q Hpq. apply H. right. exact Hpq.
Qed.
Lemma chained_cyc (Q : Pt -> Pt -> Prop) v : (forall p q, In (p, q) (cyc_edges v) -> Q p q) -> chained Q (closed_chain v).
Proof. destruct v as [|a l]; [intros; exact I|]. intros H. cbn [closed_chain app]. apply chained_edges. exact H. Qed.

(** *** turns *)
Lemma corner_turn (v : list Pt) i : (i < length v)%nat -> let '(a, b, c) := corner v i in area2 a b c = turn v i.
Proof.
  intros H. unfold corner, turn. cbv zeta. replace (pred_idx i (length v)) with ((i + length v - 1) mod length v)%nat; [reflexivity|].
  destruct i as [|i]; cbn [pred_idx].
  - rewrite Nat.add_0_l, Nat.mod_small by lia. reflexivity.
  - replace (S i + length v - 1)%nat with (i + 1 * length v)%nat by lia. rewrite Nat.mod_add by lia. apply Nat.mod_small. lia.
Qed.
Lemma at_cw (v : list Pt) i : (i < length v)%nat -> (at_corner is_cw v i = true <-> turn v i < - TH).
Proof. intros H. pose proof (corner_turn v i H) as E. unfold at_corner. destruct (corner v i) as [[a b] c]. rewrite is_cw_iff, E. lra. Qed.
Lemma at_ccw (v : list Pt) i : (i < length v)%nat -> (at_corner is_ccw v i = true <-> TH < turn v i).
Proof. intros H. pose proof (corner_turn v i H) as E. unfold at_corner. destruct (corner v i) as [[a b] c]. rewrite is_ccw_iff, E. lra. Qed.
Lemma at_col (v : list Pt) i : (i < length v)%nat -> (at_corner is_collinear v i = true <-> Rabs (turn v i) < TH).
Proof. intros H. pose proof (corner_turn v i H) as E. unfold at_corner. destruct (corner v i) as [[a b] c]. rewrite is_collinear_iff, E. split; [intros [? ?]; apply Rabs_def1; lra|intros Q; apply Rabs_def2 in Q; lra]. Qed.

Lemma skip_finds (v : list Pt) k : (k < length v)%nat -> TH <= Rabs (turn v k) -> (forall j, (j < k)%nat -> Rabs (turn v j) < TH) ->
  forall d fuel, (d <= k)%nat -> (d < fuel)%nat -> skip_collinear fuel (k - d) v = Ret k.
Proof.
  intros Hk HK HJ. induction d as [|d IH]; intros fuel Hd Hf; (destruct fuel as [|fuel]; [lia|]); cbn [skip_collinear].
  - rewrite Nat.sub_0_r. destruct (Nat.leb_spec (length v) k); [lia|].
    destruct (at_corner is_collinear v k) eqn:E; [|reflexivity]. apply at_col in E; [lra|exact Hk].
  - destruct (Nat.leb_spec (length v) (k - S d)); [lia|].
    assert (at_corner is_collinear v (k - S d) = true) as -> by (apply at_col; [lia|apply HJ; lia]).
    destruct (Nat.ltb_spec (length v) (k - S d + 1)); [lia|]. replace (k - S d + 1)%nat with (k - d)%nat by lia. apply IH; lia.
Qed.
Lemma skip_none (v : list Pt) : (forall j, (j < length v)%nat -> Rabs (turn v j) < TH) ->
  forall d fuel, (d <= length v)%nat -> (d < fuel)%nat -> skip_collinear fuel (length v - d) v = Exn IndexErr.
Proof.
  intros HJ. induction d as [|d IH]; intros fuel Hd Hf; (destruct fuel as [|fuel]; [lia|]); cbn [skip_collinear].
  - destruct (Nat.leb_spec (length v) (length v - 0)); [reflexivity|lia].
  - destruct (Nat.leb_spec (length v) (length v - S d)); [lia|].
    assert (at_corner is_collinear v (length v - S d) = true) as -> by (apply at_col; [lia|apply HJ; lia]).
    destruct (Nat.ltb_spec (length v) (length v - S d + 1)); [lia|]. replace (length v - S d + 1)%nat with (length v - d)%nat by lia. apply IH; lia.
Qed.
Lemma first_true_turn v : (forall j, (j < length v)%nat -> Rabs (turn v j) < TH) \/
  exists k, (k < length v)%nat /\ TH <= Rabs (turn v k) /\ forall j, (j < k)%nat -> Rabs (turn v j) < TH.
Proof.
  assert (G : forall n, (forall j, (j < n)%nat -> Rabs (turn v j) < TH) \/ exists k, (k < n)%nat /\ TH <= Rabs (turn v k) /\ forall j, (j < k)%nat -> Rabs (turn v j) < TH).
  { induction n as [|n [IH|IH]]; [left; intros; lia| |].
    - destruct (Rlt_or_le (Rabs (turn v n)) TH) as [L|L]; [left|right; exists n; repeat split; auto].
      intros j Hj. destruct (Nat.eq_dec j n) as [->|]; [exact L|apply IH; lia].
    - right. destruct IH as (k & A & B). exists k. split; [lia|exact B]. }
  apply G.
Qed.
Lemma existsb_corner f (v : list Pt) P : (forall i, (i < length v)%nat -> (at_corner f v i = true <-> P i)) ->
  negb (existsb (at_corner f v) (seq 0 (length v))) = true <-> forall i, (i < length v)%nat -> ~ P i.
Proof.
  intros H. rewrite negb_true_iff. split.
  - intros E i Hi Pi. apply H in Pi; [|exact Hi]. assert (existsb (at_corner f v) (seq 0 (length v)) = true); [|congruence].
    apply existsb_exists. exists i. split; [apply in_seq; lia|exact Pi].
  - intros N. destruct (existsb (at_corner f v) (seq 0 (length v))) eqn:E; [|reflexivity].
    apply existsb_exists in E as (i & Hi & Pi). apply in_seq in Hi. exfalso. apply (N i); [lia|]. apply H; [lia|exact Pi].
Qed.
(** reversing the direction of traversal *)
Lemma turn_rev (v : list Pt) i : (i < length v)%nat -> turn (rev v) i = - turn v (length v - 1 - i).
Proof.
  intros H. unfold turn. cbv zeta. rewrite rev_length. set (n := length v) in *.
  assert (M1 : ((i + n - 1) mod n < n)%nat) by (apply Nat.mod_upper_bound; lia).
  assert (M2 : ((i + 1) mod n < n)%nat) by (apply Nat.mod_upper_bound; lia).
  rewrite !rev_nth by (fold n; lia). fold n.
  replace (n - S i)%nat with (n - 1 - i)%nat by lia.
  assert (E1 : (n - S ((i + n - 1) mod n) = ((n - 1 - i + 1) mod n))%nat).
  { destruct i as [|i].
    - rewrite Nat.add_0_l, (Nat.mod_small (n - 1)) by lia. replace (n - 1 - 0 + 1)%nat with (0 + 1 * n)%nat by lia. rewrite Nat.mod_add, Nat.mod_small by lia. lia.
    - replace (S i + n - 1)%nat with (i + 1 * n)%nat by lia. rewrite Nat.mod_add, Nat.mod_small by lia. rewrite Nat.mod_small by lia. lia. }
  assert (E2 : (n - S ((i + 1) mod n) = ((n - 1 - i + n - 1) mod n))%nat).
  { destruct (Nat.eq_dec (i + 1) n) as [E|E].
    - rewrite E, Nat.mod_same by lia. rewrite Nat.mod_small by lia. lia.
    - rewrite Nat.mod_small by lia. replace (n - 1 - i + n - 1)%nat with (n - 2 - i + 1 * n)%nat by lia. rewrite Nat.mod_add, Nat.mod_small by lia. lia. }
  rewrite E1, E2. apply area2_rev.
Qed.
Lemma convex_ccw_turn (v : list Pt) i : convex_ccw v -> (i < length v)%nat -> 0 <= turn v i.
Proof.
  intros C H. unfold turn. cbv zeta. set (n := length v) in *. destruct v as [|a l]; [cbn in n; lia|].
  assert (N : n = S (length l)) by reflexivity.
  assert (M1 : ((i + n - 1) mod n < n)%nat) by (apply Nat.mod_upper_bound; lia).
  assert (M2 : ((i + 1) mod n < n)%nat) by (apply Nat.mod_upper_bound; lia).
  set (k := ((i + n - 1) mod n)%nat) in *.
  apply C; [|apply nth_In; exact M2].
  cbn [cyc_edges]. assert (EK : (nth k (a :: l) (0, 0), nth i (a :: l) (0, 0)) = nth k (combine (a :: l) (l ++ [a])) ((0, 0), (0, 0))).
  { rewrite combine_nth by (rewrite app_length; cbn; lia). f_equal.
    destruct i as [|i].
    - assert (K : k = length l) by (unfold k; rewrite Nat.add_0_l, Nat.mod_small; lia). rewrite K, app_nth2, Nat.sub_diag by lia. reflexivity.
    - assert (K : k = i). { unfold k. replace (S i + n - 1)%nat with (i + 1 * n)%nat by lia. rewrite Nat.mod_add, Nat.mod_small by lia. reflexivity. }
      rewrite K, app_nth1 by lia. reflexivity. }
  rewrite EK. apply nth_In. rewrite combine_length, app_length. cbn [length]. lia.
Qed.
