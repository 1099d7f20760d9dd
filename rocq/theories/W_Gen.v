(** generate_convex_polygon: extent, centre, convexity. *)
From Coq Require Import Reals Lra Psatz List Bool Arith Lia Permutation Sorted.
From Verif Require Import Num Spec M_Cg M_ConePolygon M_Gen L_Geom L_Polar L_Atan2 L_Gen.
Import ListNotations.
Open Scope R_scope.

(** *** spread *)
Lemma spread_unique l d e : is_spread l d -> is_spread l e -> d = e.
Proof.
  intros [(a & b & Ha & Hb & ->) H1] [(c & f & Hc & Hf & ->) H2].
  apply Rle_antisym; auto.
Qed.
Lemma spread_perm l m d : Permutation l m -> is_spread l d -> is_spread m d.
Proof.
  intros P [(a & b & Ha & Hb & E) H]. split.
  - exists a, b. repeat split; auto; eapply Permutation_in; eauto.
  - intros x y Hx Hy. apply H; eapply Permutation_in; try apply Permutation_sym; eauto.
Qed.
Lemma spread_scale k l d : 0 <= k -> is_spread l d -> is_spread (map (fun u => k * u) l) (k * d).
Proof.
  intros Hk [(a & b & Ha & Hb & E) H]. split.
  - exists (k * a), (k * b). repeat split; try (apply in_map_iff; eauto). rewrite E. ring.
  - intros x y Hx Hy. apply in_map_iff in Hx as (u & <- & Hu). apply in_map_iff in Hy as (v & <- & Hv).
    specialize (H u v Hu Hv). nra.
Qed.

(** *** means *)
Lemma psum_fst ps : fst (psum ps) = rsum (map fst ps).
Proof. unfold psum, rsum. induction ps as [|[x y] ps IH]; simpl; auto. rewrite IH. auto. Qed.
Lemma psum_snd ps : snd (psum ps) = rsum (map snd ps).
Proof. unfold psum, rsum. induction ps as [|[x y] ps IH]; simpl; auto. rewrite IH. auto. Qed.
Lemma np_mean_mean ps : np_mean ps = mean ps.
Proof.
  unfold np_mean, mean, smul. rewrite psum_fst, psum_snd, !cumsum_rsum. unfold Rdiv. apply pair_eq; apply Rmult_comm.
Qed.
Lemma psum_shift t ps : psum (map (fun p => vadd p t) ps) = vadd (psum ps) (smul (INR (length ps)) t).
Proof.
  induction ps as [|p ps IH]. { destruct t; unfold psum; unv; simpl. f_equal; ring. }
  change (length (p :: ps)) with (S (length ps)). rewrite S_INR.
  unfold psum in *. simpl. rewrite IH. destruct p, t, (fold_right vadd (0, 0) ps); unv. f_equal; ring.
Qed.
Lemma psum_smul ps : ps <> [] -> psum ps = smul (INR (length ps)) (mean ps).
Proof.
  intros H. assert (INR (length ps) <> 0).
  { apply not_0_INR. destruct ps; [congruence|simpl; lia]. }
  unfold mean. destruct (psum ps); unv. apply pair_eq; field; auto.
Qed.
Lemma mean_shift t ps : ps <> [] -> mean (map (fun p => vadd p t) ps) = vadd (mean ps) t.
Proof.
  intros H. assert (INR (length ps) <> 0).
  { apply not_0_INR. destruct ps; [congruence|simpl; lia]. }
  unfold mean. rewrite psum_shift, map_length. destruct (psum ps), t; unv. apply pair_eq; field; auto.
Qed.
Lemma mean_bound l D : l <> [] -> rsum l = 0 -> (forall a b, In a l -> In b l -> a - b <= D) ->
  forall a, In a l -> - D <= a <= D.
Proof.
  intros Hne H0 HD a Ha.
  assert (N : 0 < INR (length l)) by (apply lt_0_INR; destruct l; [congruence|simpl; lia]).
  assert (A : forall b, In b l -> a - D <= b <= a + D).
  { intros b Hb. pose proof (HD a b Ha Hb). pose proof (HD b a Hb Ha). lra. }
  assert (B : INR (length l) * (a - D) <= rsum l) by (apply rsum_ge; intros; apply A; auto).
  assert (C : INR (length l) * (- (a + D)) <= rsum (map Ropp l)).
  { rewrite <- (map_length Ropp l). apply rsum_ge. intros x Hx. apply in_map_iff in Hx as (y & <- & Hy).
    destruct (A y Hy). lra. }
  assert (E : rsum (map Ropp l) = - rsum l) by (clear; unfold rsum; induction l; simpl; lra).
  rewrite E, H0 in C. rewrite H0 in B. split.
  - assert (0 <= a + D) by (apply Rmult_le_reg_l with (INR (length l)); lra). lra.
  - assert (a - D <= 0) by (apply Rmult_le_reg_l with (INR (length l)); lra). lra.
Qed.

(** *** the laid-out polygon *)
Definition laid (xv yv : list R) : list Pt := lay 0 0 (zipsort (angles xv yv) xv) (zipsort (angles xv yv) yv).
Lemma generate_laid box ux uy bx by_ sh : ux <> [] ->
  let xv := drawn_x box ux bx in let yv := sh (drawn_x box uy by_) in
  exists t, generate_convex_polygon box ux uy bx by_ sh = Gen (map (fun p => vadd p t) (laid xv yv)) /\
    (laid xv yv <> [] -> mean (map (fun p => vadd p t) (laid xv yv)) = (0, 0)).
Proof.
  intros Hne. cbv zeta. unfold generate_convex_polygon. destruct ux as [|u ux']; [congruence|].
  fold (drawn_x box (u :: ux') bx). fold (drawn_x box uy by_). 
  set (xv := drawn_x box (u :: ux') bx). set (yv := sh (drawn_x box uy by_)). cbv zeta.
  fold (angles xv yv). fold (zipsort (angles xv yv) xv). fold (zipsort (angles xv yv) yv). fold (laid xv yv).
  set (xs := hd 0 _ - lay_min 0 0 _). set (ys := hd 0 _ - lay_min 0 0 _).
  set (t1 := (xs - fst box / 2, ys - snd box / 2) : Pt).
  assert (E1 : map (fun p : RPt => (fst p + (xs - fst box / 2), snd p + (ys - snd box / 2))) (laid xv yv) = map (fun p => vadd p t1) (laid xv yv)).
  { apply map_ext. intros p. reflexivity. }
  rewrite E1. rewrite np_mean_mean. set (m := mean (map (fun p => vadd p t1) (laid xv yv))).
  exists (vadd t1 (smul (-1) m)).
  assert (E2 : map (fun p : RPt => (fst p - fst m, snd p - snd m)) (map (fun p => vadd p t1) (laid xv yv)) =
               map (fun p => vadd p (vadd t1 (smul (-1) m))) (laid xv yv)).
  { rewrite map_map. apply map_ext. intros p. unv. apply pair_eq; ring. }
  split; [rewrite E2; reflexivity|].
  intros Hl. rewrite <- E2.
  replace (map (fun p : RPt => (fst p - fst m, snd p - snd m)) (map (fun p => vadd p t1) (laid xv yv)))
    with (map (fun p => vadd p (smul (-1) m)) (map (fun p => vadd p t1) (laid xv yv))).
  - rewrite mean_shift by (destruct (laid xv yv); [congruence|discriminate]). fold m. destruct m; unv. apply pair_eq; ring.
  - apply map_ext. intros p. unv. apply pair_eq; ring.
Qed.

Lemma sort_Rle l : StronglySorted Rle (isort Rleb l).
Proof.
  pose proof (isort_sorted Rleb Rleb_total Rleb_trans l) as H.
  induction H as [|x m H1 IH H2]; constructor; auto. eapply Forall_impl; [|exact H2]. intros y. apply Rleb_true.
Qed.
Lemma drawn_spec box ux bx d : (2 <= length ux)%nat -> 0 <= fst box -> is_spread ux d ->
  length (drawn_x box ux bx) = length ux /\ rsum (drawn_x box ux bx) = 0 /\ possum (drawn_x box ux bx) = fst box * d.
Proof.
  intros Hn Hb Hd. unfold drawn_x. set (pool := isort Rleb (map (fun u => fst box * u) ux)).
  assert (HP : Permutation pool (map (fun u => fst box * u) ux)) by apply isort_perm.
  assert (HL : length pool = length ux) by (rewrite (Permutation_length HP), map_length; auto).
  destruct (gaps_spec pool bx) as (A & B & C & D); [lia|apply sort_Rle|].
  repeat split; auto; [lia|]. rewrite C. eapply spread_unique; [exact D|].
  eapply spread_perm; [apply Permutation_sym, HP|]. apply spread_scale; auto.
Qed.
Lemma shift_map_fst t (l : list Pt) : map fst (map (fun p => vadd p t) l) = map (fun x => x + fst t) (map fst l).
Proof. rewrite !map_map. reflexivity. Qed.
Lemma shift_map_snd t (l : list Pt) : map snd (map (fun p => vadd p t) l) = map (fun x => x + snd t) (map snd l).
Proof. rewrite !map_map. reflexivity. Qed.
Lemma spread_shift l d s : is_spread l d -> is_spread (map (fun x => x + s) l) d.
Proof.
  intros [(a & b & Ha & Hb & E) H]. split.
  - exists (a + s), (b + s). repeat split; try (apply in_map_iff; eauto). lra.
  - intros x y Hx Hy. apply in_map_iff in Hx as (u & <- & Hu). apply in_map_iff in Hy as (v & <- & Hv).
    specialize (H u v Hu Hv). lra.
Qed.
Lemma prefix_spread v (coords : list R) : v <> [] -> rsum v = 0 -> length coords = length v ->
  (forall k, (k < length v)%nat -> nth k coords 0 = rsum (firstn k v)) ->
  (exists i j, (i <= length v)%nat /\ (j <= length v)%nat /\ rsum (firstn j v) - rsum (firstn i v) = possum v) ->
  is_spread coords (possum v).
Proof.
  intros Hne H0 HL HN (i & j & Hi & Hj & E).
  assert (L0 : (0 < length v)%nat) by (destruct v; [congruence|simpl; lia]).
  assert (W : forall i, (i <= length v)%nat -> exists k, (k < length v)%nat /\ rsum (firstn k v) = rsum (firstn i v)).
  { intros i' Hi'. destruct (Nat.eq_dec i' (length v)) as [->|].
    - exists 0%nat. split; auto. rewrite firstn_all, H0. reflexivity.
    - exists i'. split; auto. lia. }
  split.
  - destruct (W i Hi) as (i' & Hi' & Ei). destruct (W j Hj) as (j' & Hj' & Ej).
    exists (nth j' coords 0), (nth i' coords 0). repeat split; try (apply nth_In; lia).
    rewrite !HN by auto. lra.
  - intros a b Ha Hb. apply (In_nth _ _ 0) in Ha as (k & Hk & <-). apply (In_nth _ _ 0) in Hb as (k' & Hk' & <-).
    rewrite !HN by lia. apply prefix_diff; auto.
Qed.
Lemma map_nth_fst (l : list Pt) k : nth k (map fst l) 0 = fst (nth k l (0, 0)).
Proof. exact (map_nth fst l (0, 0) k). Qed.
Lemma map_nth_snd (l : list Pt) k : nth k (map snd l) 0 = snd (nth k l (0, 0)).
Proof. exact (map_nth snd l (0, 0) k). Qed.

Lemma convex_gen_spec box ux uy bx by_ sh dx dy :
  (2 <= length ux)%nat -> length uy = length ux -> 0 <= fst box ->
  (forall l, Permutation (sh l) l) -> is_spread ux dx -> is_spread uy dy ->
  exists l, generate_convex_polygon box ux uy bx by_ sh = Gen l /\ length l = length ux /\
    mean l = (0, 0) /\ is_spread (map fst l) (fst box * dx) /\ is_spread (map snd l) (fst box * dy).
Proof.
  intros Hn HL Hb Hsh Hdx Hdy.
  assert (Hne : ux <> []) by (intros ->; simpl in Hn; lia).
  destruct (generate_laid box ux uy bx by_ sh Hne) as (t & E & M).
  destruct (drawn_spec box ux bx dx Hn Hb Hdx) as (X1 & X2 & X3).
  destruct (drawn_spec box uy by_ dy ltac:(lia) Hb Hdy) as (Y1 & Y2 & Y3).
  set (xv := drawn_x box ux bx) in *. set (yv := sh (drawn_x box uy by_)) in *.
  assert (Yp : Permutation yv (drawn_x box uy by_)) by apply Hsh.
  assert (Y1' : length yv = length uy) by (rewrite (Permutation_length Yp); auto).
  assert (Lxy : length xv = length yv) by lia.
  pose proof (angles_length xv yv Lxy) as LA.
  pose proof (zipsort_perm (angles xv yv) xv LA) as PX.
  pose proof (zipsort_perm (angles xv yv) yv ltac:(lia)) as PY.
  set (xs := zipsort (angles xv yv) xv) in *. set (ys := zipsort (angles xv yv) yv) in *.
  assert (LX : length xs = length ux) by (rewrite (Permutation_length PX); lia).
  assert (LY : length ys = length ux) by (rewrite (Permutation_length PY); lia).
  assert (LL : length (laid xv yv) = length ux) by (unfold laid; fold xs ys; rewrite lay_length; lia).
  assert (Hl : laid xv yv <> []) by (intros K; rewrite K in LL; simpl in LL; lia).
  exists (map (fun p => vadd p t) (laid xv yv)). split; [exact E|]. split; [rewrite map_length; auto|].
  split; [apply M; auto|].
  assert (SX : rsum xs = 0) by (rewrite (rsum_perm _ _ PX); auto).
  assert (SY : rsum ys = 0) by (rewrite (rsum_perm _ _ PY), (rsum_perm _ _ Yp); auto).
  split.
  - rewrite shift_map_fst. apply spread_shift. rewrite <- X3, <- (possum_perm _ _ PX).
    apply prefix_spread; auto.
    + intros K. rewrite K in LX. simpl in LX. lia.
    + rewrite map_length. etransitivity; [exact LL|symmetry; exact LX].
    + intros k Hk. rewrite map_nth_fst. unfold laid. fold xs ys. rewrite lay_fst by lia. simpl. lra.
    + destruct (x_spread xv yv Lxy) as (i & j & Hi & Hj & Eij). fold xs in Eij.
      exists i, j. rewrite LX. repeat split; try lia. rewrite Eij. symmetry. apply possum_perm; auto.
  - rewrite shift_map_snd. apply spread_shift. rewrite <- Y3, <- (possum_perm _ _ Yp), <- (possum_perm _ _ PY).
    apply prefix_spread; auto.
    + intros K. rewrite K in LY. simpl in LY. lia.
    + rewrite map_length. etransitivity; [exact LL|symmetry; exact LY].
    + intros k Hk. rewrite map_nth_snd. unfold laid. fold xs ys. rewrite lay_fst by lia. simpl. lra.
    + destruct (y_spread xv yv Lxy) as (i & j & Hi & Hj & Eij). fold ys in Eij.
      exists i, j. rewrite LY. repeat split; try lia. rewrite Eij. symmetry. apply possum_perm; auto.
Qed.
Lemma unit_spread u d : (forall x, In x u -> 0 <= x <= 1) -> is_spread u d -> 0 <= d <= 1.
Proof.
  intros H [(a & b & Ha & Hb & ->) K]. split; [|apply H in Ha, Hb; lra].
  specialize (K a a Ha Ha). lra.
Qed.
Lemma convex_gen_bound box ux uy bx by_ sh dx dy l :
  (2 <= length ux)%nat -> length uy = length ux -> 0 <= fst box ->
  (forall l, Permutation (sh l) l) -> is_spread ux dx -> is_spread uy dy ->
  (forall x, In x ux -> 0 <= x <= 1) -> (forall x, In x uy -> 0 <= x <= 1) ->
  generate_convex_polygon box ux uy bx by_ sh = Gen l ->
  forall p, In p l -> Rabs (fst p) <= fst box /\ Rabs (snd p) <= fst box.
Proof.
  intros Hn HL Hb Hsh Hdx Hdy Ux Uy E p Hp.
  destruct (convex_gen_spec box ux uy bx by_ sh dx dy) as (l' & E' & Len & M & [_ SX] & [_ SY]); auto.
  rewrite E in E'. injection E' as <-.
  assert (Hne : l <> []) by (intros ->; simpl in Len; lia).
  pose proof (psum_smul l Hne) as PS. rewrite M in PS.
  assert (SX0 : rsum (map fst l) = 0) by (rewrite <- psum_fst, PS; unv; ring).
  assert (SY0 : rsum (map snd l) = 0) by (rewrite <- psum_snd, PS; unv; ring).
  pose proof (unit_spread ux dx Ux Hdx). pose proof (unit_spread uy dy Uy Hdy).
  assert (fst box * dx <= fst box) by nra. assert (fst box * dy <= fst box) by nra.
  split.
  - assert (- (fst box * dx) <= fst p <= fst box * dx).
    { apply (mean_bound (map fst l)); auto. destruct l; discriminate || congruence. apply in_map; auto. }
    apply Rabs_le; lra.
  - assert (- (fst box * dy) <= snd p <= fst box * dy).
    { apply (mean_bound (map snd l)); auto. destruct l; discriminate || congruence. apply in_map; auto. }
    apply Rabs_le; lra.
Qed.
Lemma spread_exists l : l <> [] -> exists d, is_spread l d.
Proof.
  intros Hne. assert (H : exists lo hi, In lo l /\ In hi l /\ forall x, In x l -> lo <= x <= hi).
  { induction l as [|x l IH]; [congruence|]. destruct l as [|y l].
    - exists x, x. simpl. repeat split; auto; destruct H as [<-|[]]; lra.
    - destruct IH as (lo & hi & A & B & C); [discriminate|].
      exists (Rmin x lo), (Rmax x hi). repeat split.
      + unfold Rmin. destruct (Rle_dec x lo); [left; auto|right; auto].
      + unfold Rmax. destruct (Rle_dec x hi); [right; auto|left; auto].
      + destruct H as [<-|H]; [apply Rmin_l|]. apply Rle_trans with lo; [apply Rmin_r|apply C; auto].
      + destruct H as [<-|H]; [apply Rmax_l|]. apply Rle_trans with hi; [apply C; auto|apply Rmax_r]. }
  destruct H as (lo & hi & A & B & C). exists (hi - lo). split.
  - exists hi, lo. auto.
  - intros a b Ha Hb. apply C in Ha, Hb. lra.
Qed.

(** *** box[1] is not respected *)
Lemma w_C23 : exists box ux uy bx by_ sh l, (length ux = 3 /\ length uy = 3)%nat /\ 0 < fst box /\ 0 < snd box /\
  (forall x, In x ux -> 0 <= x < 1) /\ (forall x, In x uy -> 0 <= x < 1) /\ (forall l, Permutation (sh l) l) /\
  generate_convex_polygon box ux uy bx by_ sh = Gen l /\ exists p, In p l /\ snd box < Rabs (snd p).
Proof.
  exists (10, 1), [0; 1/2; 9/10], [0; 1/2; 9/10], (fun _ => true), (fun _ => true), (fun l => l).
  assert (HS : is_spread [0; 1/2; 9/10] (9/10)).
  { split; [exists (9/10), 0; simpl; repeat split; auto; lra|].
    intros a b Ha Hb. simpl in Ha, Hb. decompose [or] Ha; decompose [or] Hb; subst; try tauto; lra. }
  destruct (convex_gen_spec (10, 1) [0; 1/2; 9/10] [0; 1/2; 9/10] (fun _ => true) (fun _ => true) (fun l => l) (9/10) (9/10))
    as (l & E & Len & M & _ & [(a & b & Ha & Hb & Hab) SY]); auto; try (simpl; lra || lia).
  exists l. simpl fst in *. simpl snd.
  assert (U : forall x, In x [0; 1/2; 9/10] -> 0 <= x < 1).
  { intros x Hx. simpl in Hx. decompose [or] Hx; subst; try tauto; lra. }
  repeat split; auto; try lra; try (apply U; auto).
  apply in_map_iff in Ha as (p & <- & Hp). apply in_map_iff in Hb as (q & <- & Hq).
  destruct (Rlt_or_le 1 (Rabs (snd p))); [eauto|].
  exists q. split; auto. apply Rabs_le_inv in H || idtac.
  assert (Hp' : snd p <= 1) by (unfold Rabs in H; destruct (Rcase_abs (snd p)); lra).
  rewrite Rabs_left; lra.
Qed.

(** *** convexity *)
Lemma updown (P M : list R) : (forall x, In x P -> 0 <= x) -> (forall x, In x M -> x <= 0) -> rsum (P ++ M) = 0 ->
  forall j, 0 <= rsum (firstn j (P ++ M)).
Proof.
  intros HP HM H0 j. pose proof (sum_split (P ++ M) j) as S. rewrite H0 in S.
  destruct (le_lt_dec j (length P)) as [L|L].
  - rewrite firstn_app. replace (j - length P)%nat with 0%nat by lia. simpl. rewrite app_nil_r.
    rewrite <- (Rmult_0_r (INR (length (firstn j P)))). apply rsum_ge. intros x Hx. apply HP.
    rewrite <- (firstn_skipn j P). apply in_or_app; auto.
  - assert (rsum (skipn j (P ++ M)) <= 0); [|lra].
    rewrite skipn_app, skipn_all2 by lia. simpl.
    assert (G : forall l, (forall x, In x l -> x <= 0) -> rsum l <= 0).
    { clear. induction l as [|x l IH]; intros H; unfold rsum in *; simpl; [lra|].
      assert (x <= 0) by (apply H; left; auto). assert (fold_right Rplus 0 l <= 0) by (apply IH; intros; apply H; right; auto). lra. }
    apply G. intros x Hx. apply HM. rewrite <- (firstn_skipn (j - length P) M). apply in_or_app; auto.
Qed.
Definition ang (u : Pt) : R := arctan2 (snd u) (fst u).
Lemma ang_polar u : u = polar (norm u) (ang u).
Proof. destruct u as [x y]. apply arctan2_polar. Qed.
Lemma cross_ang u v : cross u v = norm u * norm v * sin (ang v - ang u).
Proof.
  rewrite (ang_polar u) at 1. rewrite (ang_polar v) at 1. rewrite sin_minus. unfold polar, cross; simpl. ring.
Qed.
Lemma cross_psum e ps : cross e (psum ps) = rsum (map (cross e) ps).
Proof.
  unfold psum, rsum. induction ps as [|p ps IH]; simpl; [destruct e; unv; ring|].
  rewrite <- IH. destruct e, p, (fold_right vadd (0, 0) ps); unv; ring.
Qed.
Lemma psum_app a b : psum (a ++ b) = vadd (psum a) (psum b).
Proof.
  unfold psum. induction a as [|p a IH]; simpl; [destruct (fold_right vadd (0, 0) b); unv; f_equal; ring|].
  rewrite IH. destruct p, (fold_right vadd (0, 0) a), (fold_right vadd (0, 0) b); unv; f_equal; ring.
Qed.
Lemma sin_nonpos_neg x : - PI <= x <= 0 -> sin x <= 0.
Proof. intros. apply Ropp_le_cancel. rewrite Ropp_0, <- sin_neg. apply sin_ge_0; lra. Qed.
Lemma sin_nonneg_far x : - (2 * PI) < x <= - PI -> 0 <= sin x.
Proof. intros. rewrite <- (sin_2PI_neg x) || idtac. replace (sin x) with (sin (x + 2 * PI)) by (rewrite <- (sin_period x 1); simpl; f_equal; ring). apply sin_ge_0; lra. Qed.
Lemma sin_nonpos_far x : PI <= x <= 2 * PI -> sin x <= 0.
Proof. intros. apply sin_le_0; lra. Qed.

Definition by_ang (u v : Pt) : Prop := ang u <= ang v.
Lemma by_ang_threshold (l : list Pt) c : StronglySorted by_ang l ->
  exists l1 l2, l = l1 ++ l2 /\ (forall p, In p l1 -> ang p <= c) /\ (forall p, In p l2 -> c < ang p).
Proof.
  induction 1 as [|p l Hs IH Hf]. { exists [], []. split; [reflexivity|split; intros p []]. }
  destruct IH as (l1 & l2 & E & H1 & H2). destruct (Rle_or_lt (ang p) c) as [K|K].
  - exists (p :: l1), l2. rewrite E. split; [reflexivity|]. split; [intros q [<-|Hq]; auto|auto].
  - exists [], (p :: l). split; [reflexivity|]. split; [intros q []|].
    intros q [<-|Hq]; auto. rewrite Forall_forall in Hf. specialize (Hf q Hq). unfold by_ang in Hf. lra.
Qed.
Lemma ang_bound u : - PI < ang u <= PI.
Proof. apply arctan2_bound. Qed.

(** prefix sums of the vectors seen from any of them, going round *)
Lemma rotated_prefix l1 e l2 : StronglySorted by_ang (l1 ++ e :: l2) -> psum (l1 ++ e :: l2) = (0, 0) ->
  forall j, 0 <= cross e (psum (firstn j ((e :: l2) ++ l1))).
Proof.
  intros Hs H0 j. rewrite cross_psum, <- firstn_map, map_app.
  assert (HT : rsum (map (cross e) (e :: l2) ++ map (cross e) l1) = 0).
  { rewrite rsum_app, <- !cross_psum. rewrite psum_app in H0.
    replace (cross e (psum (e :: l2)) + cross e (psum l1)) with (cross e (vadd (psum l1) (psum (e :: l2))))
      by (destruct e, (psum l1), (psum (_ :: l2)); unv; ring).
    rewrite H0. destruct e; unv; ring. }
  apply sorted_app_inv in Hs as (S1 & S2 & S3).
  destruct (by_ang_threshold (e :: l2) (ang e + PI) S2) as (A1 & A2 & EA & HA1 & HA2).
  destruct (by_ang_threshold l1 (ang e - PI) S1) as (B1 & B2 & EB & HB1 & HB2).
  assert (GA : forall p, In p (e :: l2) -> ang e <= ang p).
  { intros p [<-|Hp]; [lra|]. inversion_clear S2 as [|? ? _ F]. rewrite Forall_forall in F. apply F; auto. }
  assert (GB : forall p, In p l1 -> ang p <= ang e) by (intros p Hp; apply S3; [auto|left; auto]).
  assert (NN : forall p, 0 <= norm e * norm p) by (intros; apply Rmult_le_pos; apply norm_nonneg).
  pose proof (ang_bound e) as Be. pose proof PI_RGT_0.
  assert (PA1 : forall x, In x (map (cross e) A1) -> 0 <= x).
  { intros x Hx. apply in_map_iff in Hx as (p & <- & Hp). rewrite cross_ang. apply Rmult_le_pos; auto.
    specialize (HA1 p Hp). assert (In p (e :: l2)) by (rewrite EA; apply in_or_app; auto). specialize (GA p H1). apply sin_ge_0; lra. }
  assert (PA2 : forall x, In x (map (cross e) A2) -> x <= 0).
  { intros x Hx. apply in_map_iff in Hx as (p & <- & Hp). rewrite cross_ang.
    specialize (HA2 p Hp). pose proof (ang_bound p). specialize (NN p). assert (sin (ang p - ang e) <= 0) by (apply sin_le_0; lra). nra. }
  assert (PB1 : forall x, In x (map (cross e) B1) -> 0 <= x).
  { intros x Hx. apply in_map_iff in Hx as (p & <- & Hp). rewrite cross_ang. apply Rmult_le_pos; auto.
    specialize (HB1 p Hp). pose proof (ang_bound p). apply sin_nonneg_far; lra. }
  assert (PB2 : forall x, In x (map (cross e) B2) -> x <= 0).
  { intros x Hx. apply in_map_iff in Hx as (p & <- & Hp). rewrite cross_ang.
    specialize (HB2 p Hp). assert (In p l1) by (rewrite EB; apply in_or_app; auto). specialize (GB p H1). specialize (NN p).
    assert (sin (ang p - ang e) <= 0) by (apply sin_nonpos_neg; lra). nra. }
  rewrite EA, EB, !map_app in *. destruct (Rle_or_lt (ang e) 0) as [K|K].
  - assert (B1 = []) as ->.
    { destruct B1 as [|p B1]; auto. exfalso. specialize (HB1 p (or_introl eq_refl)). pose proof (ang_bound p). lra. }
    simpl map in *. simpl app in *. rewrite <- app_assoc in *. apply updown; auto.
    intros x Hx. apply in_app_or in Hx as [Hx|Hx]; auto.
  - assert (A2 = []) as ->.
    { destruct A2 as [|p A2]; auto. exfalso. specialize (HA2 p (or_introl eq_refl)). pose proof (ang_bound p). lra. }
    simpl map in *. rewrite app_nil_r in *. rewrite app_assoc in *. apply updown; auto.
    intros x Hx. apply in_app_or in Hx as [Hx|Hx]; auto.
Qed.

Lemma cyc_nth {A} (l : list A) (d a b : A) : In (a, b) (cyc_edges l) ->
  exists k, (k < length l)%nat /\ a = nth k l d /\ b = nth ((k + 1) mod length l) l d.
Proof.
  destruct l as [|v t]; [intros []|]. cbn [cyc_edges]. intros H.
  assert (L : length (v :: t) = length (t ++ [v])) by (rewrite app_length; simpl; lia).
  apply (In_nth _ _ (d, d)) in H as (k & Hk & E). rewrite combine_nth in E by exact L.
  rewrite combine_length, <- L, Nat.min_id in Hk. injection E; intros Eb Ea. exists k. repeat split; auto.
  rewrite <- Eb. destruct (Nat.eq_dec (k + 1) (length (v :: t))) as [Q|Q].
  - rewrite Q, Nat.mod_same by (simpl; lia). rewrite app_nth2 by (simpl in *; lia).
    replace (k - length t)%nat with 0%nat by (simpl in *; lia). reflexivity.
  - rewrite Nat.mod_small by lia. rewrite app_nth1 by (simpl in *; lia).
    replace (k + 1)%nat with (S k) by lia. reflexivity.
Qed.
Lemma lay_prefix (Z : list Pt) k : (k < length Z)%nat ->
  nth k (lay 0 0 (map fst Z) (map snd Z)) (0, 0) = psum (firstn k Z).
Proof.
  intros Hk. rewrite lay_fst by (rewrite ?map_length; auto). rewrite !firstn_map, <- psum_fst, <- psum_snd.
  rewrite !Rplus_0_l. symmetry; apply surjective_pairing.
Qed.
Lemma edge_area p e r : area2 p (vadd p (psum [e])) r = cross e (vsub r p).
Proof. unfold psum. cbn [fold_right]. destruct p, e, r; unv. ring. Qed.
Lemma lay_convex (Z : list Pt) : StronglySorted by_ang Z -> psum Z = (0, 0) ->
  convex_ccw (lay 0 0 (map fst Z) (map snd Z)).
Proof.
  intros Hs H0 a b Hab r Hr.
  assert (LL : length (lay 0 0 (map fst Z) (map snd Z)) = length Z) by (rewrite lay_length; rewrite !map_length; auto).
  apply (cyc_nth _ (0, 0)) in Hab as (k & Hk & Ea & Eb). rewrite LL in *.
  apply (In_nth _ _ (0, 0)) in Hr as (j & Hj & Er). rewrite LL in Hj.
  assert (Hb : b = psum (firstn (S k) Z)).
  { rewrite Eb. destruct (Nat.eq_dec (k + 1) (length Z)) as [Q|Q].
    - rewrite Q, Nat.mod_same by lia. rewrite lay_prefix by lia.
      replace (S k) with (length Z) by lia. rewrite firstn_all, H0. reflexivity.
    - rewrite Nat.mod_small by lia. rewrite lay_prefix by lia. do 2 f_equal; lia. }
  rewrite lay_prefix in Ea by auto. rewrite lay_prefix in Er by auto. rewrite <- Er, Ea, Hb. clear Ea Eb Er Hb.
  destruct (nth_split Z (0, 0) Hk) as (l1 & l2 & EZ & Lk). set (e := nth k Z (0, 0)) in *.
  assert (F1 : firstn k Z = l1) by (rewrite EZ, firstn_app, Lk, Nat.sub_diag, <- Lk, firstn_all; simpl; apply app_nil_r).
  assert (F2 : firstn (S k) Z = l1 ++ [e]).
  { rewrite EZ, firstn_app. rewrite firstn_all2 by lia. replace (S k - length l1)%nat with 1%nat by lia. reflexivity. }
  rewrite F1, F2, psum_app. rewrite EZ in Hs, H0.
  pose proof (rotated_prefix l1 e l2 Hs H0) as RP.
  rewrite edge_area. destruct (le_lt_dec k j) as [Hkj|Hkj].
  - replace (vsub (psum (firstn j Z)) (psum l1)) with (psum (firstn (j - k) ((e :: l2) ++ l1))); [apply RP|].
    assert (FJ : firstn j Z = l1 ++ firstn (j - k) (e :: l2)).
    { rewrite EZ, firstn_app. rewrite (firstn_all2 l1) by lia. rewrite Lk. reflexivity. }
    assert (FR : firstn (j - k) ((e :: l2) ++ l1) = firstn (j - k) (e :: l2)).
    { rewrite firstn_app. replace (j - k - length (e :: l2))%nat with 0%nat; [apply app_nil_r|].
      apply (f_equal (@length Pt)) in EZ. rewrite app_length in EZ. clear - EZ Hj Lk Hkj Hk. simpl in *. lia. }
    rewrite FJ, FR, psum_app. generalize (psum l1), (psum (firstn (j - k) (e :: l2))).
    intros [] []; unv; apply pair_eq; ring.
  - replace (vsub (psum (firstn j Z)) (psum l1)) with (psum (firstn (length (e :: l2) + j) ((e :: l2) ++ l1))); [apply RP|].
    assert (FR : firstn (length (e :: l2) + j) ((e :: l2) ++ l1) = (e :: l2) ++ firstn j l1).
    { rewrite firstn_app. rewrite (firstn_all2 (e :: l2)) by lia.
      replace (length (e :: l2) + j - length (e :: l2))%nat with j by lia. reflexivity. }
    assert (FJ : firstn j Z = firstn j l1).
    { rewrite EZ, firstn_app. replace (j - length l1)%nat with 0%nat by lia. apply app_nil_r. }
    rewrite FJ, FR, psum_app. rewrite psum_app in H0. revert H0.
    generalize (psum l1), (psum (e :: l2)), (psum (firstn j l1)).
    intros [] [] []; unv; intros H0. injection H0; intros. apply pair_eq; lra.
Qed.
Lemma shift_cyc t (l : list Pt) a b : In (a, b) (cyc_edges (map (fun p => vadd p t) l)) ->
  exists a' b', In (a', b') (cyc_edges l) /\ a = vadd a' t /\ b = vadd b' t.
Proof.
  destruct l as [|v l]; [intros []|]. cbn [cyc_edges map].
  assert (G : forall (x y : list Pt), In (a, b) (combine (map (fun p => vadd p t) x) (map (fun p => vadd p t) y)) ->
     exists a' b', In (a', b') (combine x y) /\ a = vadd a' t /\ b = vadd b' t).
  { clear. induction x as [|x0 x IH]; intros [|y0 y]; simpl; try tauto.
    intros [E|H]; [injection E; intros; subst; eauto 6|]. destruct (IH y H) as (a' & b' & ? & ? & ?). eauto 6. }
  intros H. apply G. cbn [map]. rewrite map_app. exact H.
Qed.
Lemma shift_convex t (l : list Pt) : convex_ccw l -> convex_ccw (map (fun p => vadd p t) l).
Proof.
  intros H a b Hab r Hr. apply shift_cyc in Hab as (a' & b' & Hab & -> & ->).
  apply in_map_iff in Hr as (r' & <- & Hr). specialize (H a' b' Hab r' Hr).
  destruct a', b', r', t; unv. lra.
Qed.

(** distinct directions: the two separate sorts agree *)
Definition tu (f : Pt -> R) (u : Pt) : R * R := (ang u, f u).
Lemma pairing (f : Pt -> R) (T Z : list Pt) : NoDup (map ang T) -> Permutation Z T -> StronglySorted by_ang Z ->
  isort tuple_leb (map (tu f) T) = map (tu f) Z.
Proof.
  intros Nd HP Hs. apply (sorted_unique (fun a b => tuple_leb a b = true)).
  - intros x y H1 H2. apply tuple_leb_iff in H1, H2. destruct x, y; simpl in *. apply pair_eq; lra.
  - apply isort_sorted; [apply tuple_total|apply tuple_trans].
  - assert (NdZ : NoDup (map ang Z)).
    { eapply Permutation_NoDup; [|exact Nd]. apply Permutation_map, Permutation_sym, HP. }
    clear - Hs NdZ. induction Hs as [|z Z Hs IH Hf]; simpl; constructor.
    + apply IH. inversion_clear NdZ; auto.
    + inversion_clear NdZ as [|? ? Nin _]. rewrite Forall_forall in *. intros p Hp.
      apply in_map_iff in Hp as (u & <- & Hu). specialize (Hf u Hu). unfold by_ang in Hf.
      apply tuple_leb_iff. simpl. left. destruct Hf as [K|K]; auto. exfalso. apply Nin. rewrite K. apply in_map; auto.
  - rewrite isort_perm. apply Permutation_map, Permutation_sym, HP.
Qed.
Lemma combine_angles xv : forall yv, length xv = length yv ->
  combine (angles xv yv) xv = map (tu fst) (combine xv yv) /\ combine (angles xv yv) yv = map (tu snd) (combine xv yv).
Proof.
  induction xv as [|x xv IH]; intros [|y yv] H; simpl in *; try discriminate; auto.
  destruct (IH yv) as [A B]; auto. unfold angles in *. rewrite A, B. auto.
Qed.
Lemma psum_combine xv : forall yv, length xv = length yv -> psum (combine xv yv) = (rsum xv, rsum yv).
Proof.
  unfold psum, rsum. induction xv as [|x xv IH]; intros [|y yv] H; simpl in *; try discriminate; auto.
  rewrite IH by auto. reflexivity.
Qed.
Lemma psum_perm l m : Permutation l m -> psum l = psum m.
Proof.
  intros H. rewrite (surjective_pairing (psum l)), (surjective_pairing (psum m)).
  rewrite !psum_fst, !psum_snd. rewrite (rsum_perm _ _ (Permutation_map fst H)), (rsum_perm _ _ (Permutation_map snd H)). auto.
Qed.
Lemma laid_convex xv yv : length xv = length yv -> rsum xv = 0 -> rsum yv = 0 ->
  NoDup (map ang (combine xv yv)) -> convex_ccw (laid xv yv).
Proof.
  intros L Sx Sy Nd. set (T := combine xv yv) in *.
  set (Z := isort (fun u v => Rleb (ang u) (ang v)) T).
  assert (HP : Permutation Z T) by apply isort_perm.
  assert (Hs : StronglySorted by_ang Z).
  { assert (H : StronglySorted (fun u v => Rleb (ang u) (ang v) = true) Z).
    { apply isort_sorted; intros x y *; [apply Rleb_total|apply Rleb_trans]. }
    clear - H. induction H as [|x m H1 IH H2]; constructor; auto. eapply Forall_impl; [|exact H2].
    intros y. apply Rleb_true. }
  destruct (combine_angles xv yv L) as [EX EY].
  unfold laid, zipsort. rewrite EX, EY. fold T. rewrite !(pairing _ T Z Nd HP Hs), !map_map. unfold tu; simpl.
  change (map (fun x => fst x) Z) with (map fst Z). change (map (fun x => snd x) Z) with (map snd Z).
  apply lay_convex; auto. rewrite (psum_perm _ _ HP). unfold T. rewrite psum_combine, Sx, Sy; auto.
Qed.
Lemma same_ang_dir u v : ang u = ang v -> u <> (0, 0) -> v <> (0, 0) -> cross u v = 0 /\ 0 < dot u v.
Proof.
  intros E Hu Hv. pose proof (norm_pos u Hu). pose proof (norm_pos v Hv).
  split.
  - rewrite cross_ang, E, Rminus_diag_eq by auto. rewrite sin_0. ring.
  - rewrite (ang_polar u), (ang_polar v), E. unfold dot, polar; simpl.
    pose proof (sin2_cos2 (ang v)) as K. unfold Rsqr in K.
    replace (norm u * cos (ang v) * (norm v * cos (ang v)) + norm u * sin (ang v) * (norm v * sin (ang v)))
      with (norm u * norm v * (sin (ang v) * sin (ang v) + cos (ang v) * cos (ang v))) by ring.
    rewrite K. nra.
Qed.
Lemma nodup_ang (T : list Pt) : Forall (fun u => u <> (0, 0)) T ->
  ForallOrdPairs (fun u v => ~ (cross u v = 0 /\ 0 < dot u v)) T -> NoDup (map ang T).
Proof.
  intros HF HP. induction HP as [|u T Hu HP IH]; simpl; constructor.
  - intros Hin. apply in_map_iff in Hin as (v & E & Hv). inversion_clear HF as [|? ? Hu0 HT]. rewrite Forall_forall in *.
    apply (Hu v Hv). apply same_ang_dir; auto.
  - apply IH. inversion_clear HF; auto.
Qed.
Lemma convex_gen_convex box ux uy bx by_ sh :
  (2 <= length ux)%nat -> length uy = length ux -> 0 <= fst box -> (forall l, Permutation (sh l) l) ->
  let vecs := combine (drawn_x box ux bx) (sh (drawn_x box uy by_)) in
  Forall (fun u => u <> (0, 0)) vecs -> ForallOrdPairs (fun u v => ~ (cross u v = 0 /\ 0 < dot u v)) vecs ->
  exists l, generate_convex_polygon box ux uy bx by_ sh = Gen l /\ convex_ccw l.
Proof.
  intros Hn HL Hb Hsh. cbv zeta. intros HF HP.
  assert (Hne : ux <> []) by (intros ->; simpl in Hn; lia).
  assert (Hne' : uy <> []) by (intros ->; simpl in HL; lia).
  destruct (spread_exists ux Hne) as (dx & Hdx). destruct (spread_exists uy Hne') as (dy & Hdy).
  destruct (generate_laid box ux uy bx by_ sh Hne) as (t & E & M).
  destruct (drawn_spec box ux bx dx Hn Hb Hdx) as (X1 & X2 & X3).
  destruct (drawn_spec box uy by_ dy ltac:(lia) Hb Hdy) as (Y1 & Y2 & Y3).
  eexists. split; [exact E|]. apply shift_convex. pose proof (Hsh (drawn_x box uy by_)) as Yp. apply laid_convex; auto.
  - rewrite (Permutation_length Yp). lia.
  - rewrite (rsum_perm _ _ Yp). auto.
  - apply nodup_ang; auto.
Qed.

(** *** two edges in the same direction: x and y components are paired up wrongly *)
Definition swap23 (l : list R) : list R := match l with [a; b; c] => [a; c; b] | _ => l end.
Lemma swap23_perm l : Permutation (swap23 l) l.
Proof. destruct l as [|a [|b [|c [|]]]]; simpl; auto. constructor. constructor. Qed.
Ltac decide_cmp := repeat (cbn [insert fst snd]; match goal with
  | |- context [Reqb ?a ?b] => destruct (Reqb_spec a b); [try (exfalso; lra)|try (exfalso; lra)]
  | |- context [Rleb ?a ?b] => destruct (Rleb_spec a b); [try (exfalso; lra)|try (exfalso; lra)]
  | |- context [Rltb ?a ?b] => destruct (Rltb_spec a b); [try (exfalso; lra)|try (exfalso; lra)]
  end).
Lemma pool_ex : isort Rleb [4 * 0; 4 * (1/4); 4 * (3/4)] = [4 * 0; 4 * (1/4); 4 * (3/4)].
Proof. unfold isort; cbn [fold_right]. decide_cmp. reflexivity. Qed.
Lemma drawn_ex b : drawn_x (4, 4) [0; 1/4; 3/4] (fun _ => b) = if b then [1; 2; -3] else [-1; 3; -2].
Proof.
  unfold drawn_x. cbn [map fst]. rewrite pool_ex. unfold gaps. cbn [hd tl last removelast chain].
  destruct b; repeat (apply (f_equal2 (@cons R)); [lra|]); reflexivity.
Qed.
Lemma angles_ex : angles [-1; 3; -2] [1; -3; 2] = [atan (-1) + PI; atan (-1); atan (-1) + PI].
Proof.
  unfold angles, arctan2. cbn [combine map fst snd]. decide_cmp.
  replace (1 / -1) with (-1) by lra. replace (-3 / 3) with (-1) by lra. replace (2 / -2) with (-1) by lra. reflexivity.
Qed.
Lemma laid_ex : laid [-1; 3; -2] [1; -3; 2] = [(0, 0); (0 + 3, 0 + -3); (0 + 3 + -2, 0 + -3 + 1)].
Proof.
  pose proof PI_RGT_0. unfold laid. rewrite angles_ex. unfold zipsort, isort, tuple_leb. cbn [combine fold_right insert fst snd].
  set (a := atan (-1)).
  decide_cmp. reflexivity.
Qed.
Lemma w_C76 : exists box ux uy bx by_ sh l, (length ux = 3 /\ length uy = 3)%nat /\ 0 < fst box /\
  (forall x, In x ux -> 0 <= x < 1) /\ (forall x, In x uy -> 0 <= x < 1) /\ (forall l, Permutation (sh l) l) /\
  generate_convex_polygon box ux uy bx by_ sh = Gen l /\ ~ convex_ccw l.
Proof.
  exists (4, 4), [0; 1/4; 3/4], [0; 1/4; 3/4], (fun _ => false), (fun _ => true), swap23.
  destruct (generate_laid (4, 4) [0; 1/4; 3/4] [0; 1/4; 3/4] (fun _ => false) (fun _ => true) swap23) as (t & E & _); [discriminate|].
  rewrite !drawn_ex in E. cbn [swap23] in E. rewrite laid_ex in E. eexists.
  split; [simpl; auto|]. split; [simpl; lra|].
  assert (U : forall x, In x [0; 1/4; 3/4] -> 0 <= x < 1).
  { intros x Hx. simpl in Hx. decompose [or] Hx; subst; try tauto; lra. }
  split; [exact U|]. split; [exact U|]. split; [apply swap23_perm|]. split; [exact E|].
  intros H. specialize (H _ _ (or_introl eq_refl) _ (or_intror (or_intror (or_introl eq_refl)))).
  destruct t; unv. lra.
Qed.
