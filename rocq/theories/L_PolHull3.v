(** polygon_kernel_starshaped_hull: the starting vertex; polygons that every kernel point sees completely. *)
From Coq Require Import QArith Reals Lra Psatz List Bool Arith ZArith Lia.
From Verif Require Import Num Spec M_Cg M_Motion M_Obstacle M_PolHull S_PolHull L_Geom L_Cg L_PolHull L_PolHull2 W_PolWorld.
Import ListNotations.
Open Scope R_scope.

(** *** The starting vertex *)
Lemma argmax_spec (l : list (pt R)) : forall pre best bi i, length pre = i -> (exists p, nth_error pre bi = Some p /\ fst p = best) ->
  (forall q, In q pre -> fst q <= best) ->
  exists p, nth_error (pre ++ l) (argmax_x best bi i l) = Some p /\ forall q, In q (pre ++ l) -> fst q <= fst p.
Proof.
  induction l as [|x l IH]; intros pre best bi i L (p & Hp & Ep) Hm; cbn [argmax_x].
  - rewrite app_nil_r. exists p. rewrite Ep. auto.
  - replace (pre ++ x :: l) with ((pre ++ [x]) ++ l) by (rewrite <- app_assoc; reflexivity).
    nR. destruct (Rltb_spec best (fst x)) as [C|C]; apply IH.
    + rewrite app_length. cbn. lia.
    + exists x. rewrite nth_error_app2 by lia. rewrite L, Nat.sub_diag. auto.
    + intros q Hq. apply in_app_iff in Hq as [Hq|[<-|[]]]; [apply Hm in Hq; lra|lra].
    + rewrite app_length. cbn. lia.
    + exists p. rewrite nth_error_app1; auto. apply nth_error_Some. congruence.
    + intros q Hq. apply in_app_iff in Hq as [Hq|[<-|[]]]; [apply Hm in Hq; lra|lra].
Qed.
Lemma nth_skipn {A} (l : list A) : forall i p, nth_error l i = Some p -> exists r, skipn i l = p :: r.
Proof. induction l as [|x l IH]; intros [|i] p H; try discriminate; cbn in *; [injection H as <-; eauto|eauto]. Qed.
Lemma roll_spec (V : list (pt R)) : V <> [] -> exists p m, roll_to_max V = p :: m /\ rotation V (roll_to_max V) /\ forall q, In q V -> fst q <= fst p.
Proof.
  destruct V as [|v V]; [congruence|]. intros _. unfold roll_to_max. cbv zeta.
  destruct (argmax_spec V [v] (fst v) 0 1) as (p & Hp & Hm); auto.
  { exists v. auto. } { intros q [<-|[]]. lra. }
  cbn [app] in Hp, Hm. destruct (nth_skipn _ _ _ Hp) as [r Er]. unfold pt in *. rewrite Er. exists p, (r ++ firstn (argmax_x (fst v) 0 1 V) (v :: V)).
  split; [reflexivity|]. split; auto. exists (argmax_x (fst v) 0 1 V). rewrite Er. reflexivity.
Qed.
Lemma split_unique {A} (P : A -> Prop) (l1 l2 m1 m2 : list A) p q : P p -> (forall x, In x (l1 ++ l2) -> ~ P x) -> P q ->
  l1 ++ p :: l2 = m1 ++ q :: m2 -> l1 = m1 /\ p = q /\ l2 = m2.
Proof.
  intros Pp N Pq. revert m1 N. induction l1 as [|x l1 IH]; intros m1 N E.
  - destruct m1 as [|y m1]; cbn in E; injection E as E1 E2; [auto|]. exfalso. apply (N q); auto. rewrite E2. cbn [app]. apply in_app_iff. right. left. auto.
  - destruct m1 as [|y m1]; cbn in E; injection E as E1 E2.
    + exfalso. apply (N q); auto. subst. left. auto.
    + destruct (IH m1) as (-> & -> & ->); auto. 2:{ subst. auto. } intros z Hz. apply N. right. auto.
Qed.
Lemma roll_split (l1 l2 : list (pt R)) (p : pt R) : (forall q, In q (l1 ++ l2) -> fst q < fst p) -> roll_to_max (l1 ++ p :: l2) = p :: l2 ++ l1.
Proof.
  intros H. destruct (roll_spec (l1 ++ p :: l2)) as (q & m & E & (k & Ek) & Hm); [destruct l1; discriminate|].
  rewrite E in Ek |- *.
  assert (Hq : q = p).
  { assert (Iq : In q (l1 ++ p :: l2)).
    { rewrite <- (firstn_skipn k (l1 ++ p :: l2)). apply in_app_iff. assert (I : In q (skipn k (l1 ++ p :: l2) ++ firstn k (l1 ++ p :: l2))) by (rewrite <- Ek; left; auto).
      apply in_app_iff in I. tauto. }
    apply in_app_iff in Iq as [Iq|[Iq|Iq]]; auto; exfalso.
    - specialize (H q). rewrite in_app_iff in H. specialize (H (or_introl Iq)). specialize (Hm p). rewrite in_app_iff in Hm. specialize (Hm (or_intror (or_introl eq_refl))). lra.
    - specialize (H q). rewrite in_app_iff in H. specialize (H (or_intror Iq)). specialize (Hm p). rewrite in_app_iff in Hm. specialize (Hm (or_intror (or_introl eq_refl))). lra. }
  subst q. destruct (skipn k (l1 ++ p :: l2)) as [|x s] eqn:Es.
  - cbn [app] in Ek. pose proof (firstn_skipn k (l1 ++ p :: l2)) as Fs. rewrite Es, app_nil_r, <- Ek in Fs.
    destruct (split_unique (fun x => fst p <= fst x) l1 l2 [] m p p) as (-> & _ & ->); auto; try lra.
    { intros x Hx. specialize (H x Hx). lra. } rewrite app_nil_r. reflexivity.
  - cbn [app] in Ek. injection Ek as <- ->. pose proof (firstn_skipn k (l1 ++ p :: l2)) as Fs. rewrite Es in Fs.
    destruct (split_unique (fun x => fst p <= fst x) l1 l2 (firstn k (l1 ++ p :: l2)) s p p) as (E1 & _ & E2); auto; try lra.
    { intros x Hx. specialize (H x Hx). lra. } rewrite <- E1, <- E2. reflexivity.
Qed.
Lemma rotation_split {A} (l1 l2 l' : list A) p : rotation (l1 ++ p :: l2) l' -> exists m1 m2, l' = m1 ++ p :: m2 /\ m2 ++ m1 = l2 ++ l1.
Proof.
  intros (k & ->). destruct (Nat.le_gt_cases k (length l1)) as [C|C].
  - exists (skipn k l1), (l2 ++ firstn k l1). rewrite skipn_app, firstn_app. replace (k - length l1)%nat with 0%nat by lia. cbn [skipn firstn].
    rewrite app_nil_r, <- !app_assoc. cbn [app]. split; [reflexivity|]. rewrite firstn_skipn. reflexivity.
  - exists (skipn (k - length l1 - 1) l2 ++ l1), (firstn (k - length l1 - 1) l2). rewrite skipn_app, firstn_app.
    rewrite (skipn_all2 l1) by lia. rewrite (firstn_all2 l1) by lia. replace (k - length l1)%nat with (S (k - length l1 - 1)) by lia. cbn [skipn firstn app].
    rewrite <- !app_assoc. split; [replace (S (k - length l1 - 1) - 1)%nat with (k - length l1 - 1)%nat by lia; reflexivity|].
    rewrite app_assoc, firstn_skipn. reflexivity.
Qed.
(** the ring as the code arranges it, for a unique largest x *)
Definition arranged (p : pt R) (m : list (pt R)) : list (pt R) := if is_cw (last m p) p (hd p m) then p :: rev m else p :: m.
Lemma arrange_split (l1 l2 : list (pt R)) (p : pt R) : (forall q, In q (l1 ++ l2) -> fst q < fst p) -> l2 ++ l1 <> [] ->
  arrange (l1 ++ p :: l2) = Ret (arranged p (l2 ++ l1)).
Proof.
  intros H Ne. unfold arrange. cbv zeta. rewrite roll_split by auto. remember (l2 ++ l1) as m eqn:Em. clear Em.
  destruct (exists_last_or_nil m) as [->|(m' & b & ->)]; [congruence|].
  change (p :: m' ++ [b]) with ((p :: m') ++ [b]). rewrite py_last. cbn [bind app].
  assert (E0 : py_get (p :: m' ++ [b]) 0 = Ret p) by reflexivity.
  assert (E1 : py_get (p :: m' ++ [b]) 1 = Ret (hd p (m' ++ [b]))) by (change 1%Z with (Z.of_nat 1); apply nth_py; destruct m'; reflexivity).
  rewrite E0. cbn [bind]. rewrite E1. cbn [bind]. unfold arranged. rewrite last_last. destruct (is_cw _ _ _); [rewrite flip_roll_cons|]; reflexivity.
Qed.
Lemma last_rev {A} (m : list A) d : last (rev m) d = hd d m.
Proof. destruct m as [|a m]; [reflexivity|]. cbn [rev hd]. apply last_last. Qed.
Lemma hd_rev {A} (m : list A) d : hd d (rev m) = last m d.
Proof. rewrite <- (rev_involutive m) at 2. rewrite last_rev. reflexivity. Qed.
Lemma arranged_rev (p : pt R) (m : list (pt R)) : TH < Rabs (area2 (last m p) p (hd p m)) -> arranged p (rev m) = arranged p m.
Proof.
  intros H. unfold arranged. rewrite last_rev, hd_rev, rev_involutive.
  assert (E : area2 (hd p m) p (last m p) = - area2 (last m p) p (hd p m)) by (destruct (hd p m), (last m p), p; unv; ring).
  destruct (is_cw (hd p m) p (last m p)) eqn:C1; destruct (is_cw (last m p) p (hd p m)) eqn:C2; auto; exfalso.
  - apply is_cw_iff in C1, C2. pose proof TH_pos. lra.
  - apply is_cw_false in C1, C2. rewrite E in C1. unfold Rabs in H. destruct (Rcase_abs _); lra.
Qed.

(** *** Rings *)
Lemma cyc_next {A} (l : list A) : forall i a b, nth_error l i = Some a -> nth_error l (S i) = Some b -> In (a, b) (cyc_edges l).
Proof.
  assert (G : forall (l r : list A) i a b, nth_error l i = Some a -> nth_error r i = Some b -> In (a, b) (combine l r)).
  { induction l0 as [|x l0 IH]; intros [|y r] [|i] a b Ha Hb; try discriminate; cbn in *; [left; congruence|right; eauto]. }
  intros i a b Ha Hb. destruct l as [|v t]; [destruct i; discriminate|]. unfold cyc_edges. apply (G _ _ i); auto.
  cbn in Hb. rewrite nth_error_app1; auto. apply nth_error_Some. congruence.
Qed.
Lemma cyc_wrap {A} (l : list A) a b : In (b, a) (cyc_edges (a :: l ++ [b])).
Proof.
  unfold cyc_edges. replace (a :: l ++ [b]) with ((a :: l) ++ [b]) by reflexivity.
  assert (G : forall (l r : list A) x y, length l = length r -> In (x, y) (combine (l ++ [x]) (r ++ [y]))).
  { induction l0 as [|z l0 IH]; intros [|w r] x y L; try discriminate; cbn in *; [auto|right; apply IH; lia]. }
  apply G. rewrite app_length. cbn. lia.
Qed.
Lemma cyc_from {A} (l : list A) v : In v l -> exists w, In (v, w) (cyc_edges l).
Proof.
  intros H. destruct l as [|a t]; [destruct H|]. unfold cyc_edges.
  assert (G : forall (l r : list A), length l = length r -> In v l -> exists w, In (v, w) (combine l r)).
  { induction l as [|x l IH]; intros [|y r] L Hv; try discriminate; [destruct Hv|]. cbn in *. destruct Hv as [<-|Hv]; [eauto|].
    destruct (IH r) as [w Hw]; auto. eauto. }
  apply G; auto. rewrite app_length. cbn. lia.
Qed.

Lemma combine_app2 {A B} (p : list A) (q : list B) r t : length p = length q -> combine (p ++ r) (q ++ t) = combine p q ++ combine r t.
Proof. revert q. induction p as [|a p IH]; intros [|b q] L; try discriminate; cbn [app combine]; [reflexivity|]. f_equal. apply IH. injection L as L. exact L. Qed.
Lemma cyc_rotation {A} (l l' : list A) e : rotation l l' -> In e (cyc_edges l') -> In e (cyc_edges l).
Proof.
  intros (k & ->).
  assert (G : forall (a b : list A) x y, cyc_edges (x :: a ++ y :: b) = combine (x :: a) (a ++ [y]) ++ combine (y :: b) (b ++ [x])).
  { intros a b x y. cbn [cyc_edges]. replace ((a ++ y :: b) ++ [x]) with ((a ++ [y]) ++ (b ++ [x])) by (rewrite <- !app_assoc; reflexivity).
    change (x :: a ++ y :: b) with ((x :: a) ++ (y :: b)). apply combine_app2. rewrite app_length. cbn [length]. lia. }
  rewrite <- (firstn_skipn k l) at 3. destruct (firstn k l) as [|x a]; [rewrite app_nil_r; auto|]. destruct (skipn k l) as [|y b]; [rewrite app_nil_r; auto|].
  change ((y :: b) ++ x :: a) with (y :: b ++ x :: a). change ((x :: a) ++ y :: b) with (x :: a ++ y :: b). rewrite !G, !in_app_iff. tauto.
Qed.
Lemma cyc_in {A} (l : list A) a b : In (a, b) (cyc_edges l) -> In a l /\ In b l.
Proof.
  destruct l as [|v t]; [intros []|]. unfold cyc_edges. intros H. split; [eapply in_combine_l; eauto|]. apply in_combine_r in H.
  apply in_app_iff in H as [H|[<-|[]]]; simpl; auto.
Qed.
Lemma cyc_to {A} (l : list A) v : In v l -> exists w, In (w, v) (cyc_edges l).
Proof.
  intros H. destruct l as [|a t]; [destruct H|]. unfold cyc_edges.
  assert (G : forall (l r : list A), length l = length r -> In v r -> exists w, In (w, v) (combine l r)).
  { induction l as [|x l IH]; intros [|y r] L Hv; try discriminate; [destruct Hv|]. cbn in *. destruct Hv as [<-|Hv]; [eauto|].
    destruct (IH r) as [w Hw]; auto. eauto. }
  apply G; [rewrite app_length; cbn; lia|]. apply in_app_iff. destruct H as [<-|H]; simpl; auto.
Qed.
Lemma has_max {A} (f : A -> R) (l : list A) : l <> [] -> exists v, In v l /\ forall w, In w l -> f w <= f v.
Proof.
  induction l as [|a l IH]; [congruence|]. intros _. destruct l as [|b l].
  - exists a. split; [left; auto|]. intros w [<-|[]]. lra.
  - destruct IH as (v & Hv & Hm); [discriminate|]. destruct (Rle_lt_dec (f v) (f a)) as [C|C].
    + exists a. split; [left; auto|]. intros w [<-|Hw]; [lra|]. specialize (Hm w Hw). lra.
    + exists v. split; [right; auto|]. intros w [<-|Hw]; [lra|auto].
Qed.

(** *** A ring that goes round k is not on one side of k *)
Lemma not_one_side (k : Pt) (V : list Pt) : V <> [] -> (forall a b, In (a, b) (cyc_edges V) -> 0 < area2 k a b) ->
  ~ forall v, In v V -> fst v <= fst k.
Proof.
  intros Ne H L.
  assert (St : forall v, In v V -> fst v < fst k).
  { intros v Hv. destruct (Rle_lt_or_eq_dec _ _ (L v Hv)) as [C|C]; auto. exfalso.
    destruct (cyc_from V v Hv) as [b Hb]. destruct (cyc_to V v Hv) as [a Ha].
    pose proof (L b (proj2 (cyc_in _ _ _ Hb))) as Lb. pose proof (L a (proj1 (cyc_in _ _ _ Ha))) as La. apply H in Ha, Hb.
    destruct a as [a1 a2], b as [b1 b2], v as [v1 v2], k as [k1 k2]. unv. cbn [fst snd] in *. subst v1.
    assert (A1 : 0 < (a1 - k1) * (v2 - k2)) by lra. assert (B1 : 0 < - ((v2 - k2) * (b1 - k1))) by lra.
    destruct (Rle_lt_dec 0 (v2 - k2)) as [D|D].
    - pose proof (Rmult_le_pos (k1 - a1) (v2 - k2) ltac:(lra) D). lra.
    - pose proof (Rmult_le_pos (k1 - b1) (k2 - v2) ltac:(lra) ltac:(lra)). lra. }
  destruct (has_max (fun v => (snd v - snd k) / (fst v - fst k)) V Ne) as (v & Hv & Hm). destruct (cyc_from V v Hv) as [b Hb].
  pose proof (Hm b (proj2 (cyc_in _ _ _ Hb))) as M. pose proof (St v Hv) as Sv. pose proof (St b (proj2 (cyc_in _ _ _ Hb))) as Sb. apply H in Hb.
  destruct b as [b1 b2], v as [v1 v2], k as [k1 k2]. unv. cbn [fst snd] in *.
  apply (Rmult_le_compat_r ((b1 - k1) * (v1 - k1))) in M; [|nra].
  replace ((b2 - k2) / (b1 - k1) * ((b1 - k1) * (v1 - k1))) with ((b2 - k2) * (v1 - k1)) in M by (field; lra).
  replace ((v2 - k2) / (v1 - k1) * ((b1 - k1) * (v1 - k1))) with ((v2 - k2) * (b1 - k1)) in M by (field; lra). lra.
Qed.

Section Already.
  Variable A : region.
  Variable K V : list (pt R).
  Variable W : pol_world R.
  Hypothesis F : faithful A K W.
  Hypothesis LK : (length K <= 3)%nat.
  Hypothesis Hopen : forall k v, In k K -> In v V -> open_behind A k v.
  Hypothesis Hseg : forall k v x, In k K -> In v V -> on_seg k v x -> A x.
  Hypothesis Hccw : forall k a b, In k K -> In (a, b) (cyc_edges V) -> 0 < area2 k a b.

  Lemma al_kept v : In v V -> visible W K v = true /\ forall sv, add_vertex W K v sv = sv ++ [v].
  Proof.
    intros Hv. split; [apply (visible_open A K W F); auto|]. intros sv. unfold add_vertex.
    destruct (Nat.ltb_spec (length K) 3) as [L|L]; [reflexivity|]. cbn [orb].
    destruct (pw_in_kernel W v) eqn:E; [|reflexivity]. exfalso. assert (L3 : length K = 3%nat) by lia.
    apply (f_kernel _ _ _ F L3) in E as (r & Hr & E). assert (D : in_hull K v).
    { apply E. unfold dist, norm. replace (norm2 (vsub v v)) with 0 by (destruct v; unv; ring). rewrite sqrt_0. auto. }
    destruct (cyc_from V v Hv) as [w Hw]. clear E.
    assert (P : forall k, In k K -> 0 < area2 k v w) by (intros; apply Hccw; auto). clear - D P L3.
    destruct K as [|a [|b [|c [|d K']]]]; try discriminate. apply hull3 in D as (t & u & z & Ht & Hu & Hz & S1 & Ev).
    pose proof (P a ltac:(simpl; auto)) as Pa. pose proof (P b ltac:(simpl; auto)) as Pb. pose proof (P c ltac:(simpl; auto)) as Pc.
    assert (Zv : area2 v v w = 0) by (destruct v, w; unv; ring).
    assert (E : area2 v v w = t * area2 a v w + u * area2 b v w + z * area2 c v w).
    { assert (G : forall q : Pt, area2 (vadd (smul t a) (vadd (smul u b) (smul z c))) q w = t * area2 a q w + u * area2 b q w + z * area2 c q w).
      { intros q. assert (t = 1 - u - z) as -> by lra. destruct a, b, c, q, w; unv; ring. }
      rewrite <- G, <- Ev. reflexivity. }
    pose proof (Rmult_le_pos _ _ Ht (Rlt_le _ _ Pa)). pose proof (Rmult_le_pos _ _ Hu (Rlt_le _ _ Pb)). pose proof (Rmult_le_pos _ _ Hz (Rlt_le _ _ Pc)).
    destruct (Rlt_le_dec 0 t) as [T|T]; [pose proof (Rmult_lt_0_compat _ _ T Pa); lra|].
    destruct (Rlt_le_dec 0 u) as [U|U]; [pose proof (Rmult_lt_0_compat _ _ U Pb); lra|].
    assert (z = 1) as -> by lra. lra.
  Qed.
  Lemma al_adjust v h ks : forall sv adj, py_get sv 0 = Ret h -> exists adj', adjust_loop W v h (line_seg h h) 0 ks sv adj = Ret (sv, adj').
  Proof.
    induction ks as [|k ks IH]; intros sv adj H0; cbn [adjust_loop]; [eauto|].
    destruct (pw_cross W (line_seg k v) (line_seg h h)) as [|c|a b] eqn:Ec; [auto| |].
    - rewrite H0. cbn [bind]. rewrite norm2_diff_0. nR. destruct (Rltb_spec (norm2_diff h c) 0) as [L|L]; [pose proof (norm2_diff_nonneg h c); lra|auto].
    - exfalso. pose proof (f_cross _ _ _ F (line_seg k v) (line_seg h h)) as C. rewrite Ec in C. destruct C as [Ne C].
      destruct (proj2 (C a) (on_seg_start a b)) as [_ A2]. destruct (proj2 (C b) (on_seg_end a b)) as [_ B2].
      apply line_seg_on in A2, B2. apply on_seg_same in A2, B2. congruence.
  Qed.
  Lemma line_seg_first (a b : pt R) : seg_region (line_seg a b) (fst (line_seg a b)).
  Proof. apply on_seg_start. Qed.
  Lemma al_augment v vp vb ks : In v V -> incl ks K -> forall i s, augment_loop W K v vp vb i ks s = Ret s.
  Proof.
    intros Hv. induction ks as [|k ks IH]; intros I i s; cbn [augment_loop]; [reflexivity|].
    assert (Ik : In k K) by (apply I; left; auto). assert (I' : incl ks K) by (intros x Hx; apply I; right; auto).
    assert (Nd : find (fun uc => pw_disjoint W (line_seg uc v)) (intersection_points (pw_meet W (line_seg k v))) = None).
    { destruct (find _ _) as [u|] eqn:Fd; [|reflexivity]. exfalso. apply find_some in Fd as [Iu Du].
      apply (r_meet_in A K W F) in Iu as [On _]. rewrite (f_disjoint _ _ _ F) in Du. eapply Du; [apply line_seg_first|].
      apply (Hseg k v); auto. eapply on_seg_sub; [exact On|]. apply line_seg_on. apply line_seg_first. }
    destruct (pw_meet W (line_seg k v)) eqn:Em.
    1:{ exfalso. apply (f_meet_empty _ _ _ F) with (x := fst (line_seg k v)) in Em; [|apply line_seg_first]. apply Em. apply (Hseg k v); auto.
        apply line_seg_on, line_seg_first. }
    all: rewrite Nd; apply IH; auto.
  Qed.
  Lemma al_step v vp sv inc vb : In v V -> exists vb', vertex_step W K v vp (AS sv 0 0 inc, vb) = Ret (AS (sv ++ [v]) 0 0 inc, vb').
  Proof.
    intros Hv. destruct (al_kept v Hv) as [Vi Ad]. unfold vertex_step. rewrite Vi. cbv zeta. cbn [a_sv a_e1 a_e2 a_inc]. rewrite Ad.
    destruct (sv ++ [v]) as [|h t] eqn:Es; [destruct sv; discriminate|]. rewrite <- Es.
    assert (H0 : py_get (sv ++ [v]) 0 = Ret h) by (rewrite Es; reflexivity). rewrite H0. cbn [bind].
    destruct (al_adjust v h K (sv ++ [v]) false H0) as [adj ->]. cbn [bind].
    assert (E : (if adj then Ret (AS (sv ++ [v]) 0 0 inc) else augment_loop W K v vp vb 0 K (AS (sv ++ [v]) 0 0 inc)) = Ret (AS (sv ++ [v]) 0 0 inc)).
    { destruct adj; auto. apply al_augment; auto. apply incl_refl. }
    rewrite E. cbn [bind a_sv]. rewrite py_last. cbn [bind]. eauto.
  Qed.
  Lemma al_loop vs : forall vp sv inc vb, incl vs V -> exists vb', vertex_loop W K vp vs (AS sv 0 0 inc, vb) = Ret (AS (sv ++ vs) 0 0 inc, vb').
  Proof.
    induction vs as [|v vs IH]; intros vp sv inc vb I; cbn [vertex_loop]; [rewrite app_nil_r; eauto|].
    destruct (al_step v vp sv inc vb) as [vb1 ->]; [apply I; left; auto|]. cbn [bind].
    destruct (IH v (sv ++ [v]) inc vb1) as [vb2 E]; [intros x Hx; apply I; right; auto|]. rewrite E, <- app_assoc. cbn [app]. eauto.
  Qed.
  Lemma al_insert j v vp ks : incl ks K -> In (v, vp) (cyc_edges V) -> forall i sv inc, insert_kernel j v vp i ks sv inc = (sv, inc).
  Proof.
    intros I E. induction ks as [|k ks IH]; intros i sv inc; cbn [insert_kernel]; [reflexivity|].
    assert (C : is_cw k v vp = false).
    { apply is_cw_false. pose proof (Hccw k v vp (I k (or_introl eq_refl)) E). pose proof TH_pos. lra. }
    rewrite C, andb_false_r. apply IH. intros x Hx. apply I. right. auto.
  Qed.
  Lemma al_final sv inc : (forall e, In e (cyc_edges sv) -> In e (cyc_edges V)) -> forall c j, (j + c = length sv)%nat -> final_loop K c j sv inc = Ret sv.
  Proof.
    intros E. induction c as [|c IH]; intros j L; cbn [final_loop]; [reflexivity|].
    assert (G : exists v vp, py_get sv (Z.of_nat j - 1) = Ret v /\ py_get sv (Z.of_nat j) = Ret vp /\ In (v, vp) (cyc_edges sv)).
    { destruct (nth_error sv j) as [vp|] eqn:Ej; [|apply nth_error_None in Ej; lia].
      destruct j as [|j].
      - destruct sv as [|a t]; [discriminate|]. injection Ej as <-. destruct (exists_last_or_nil t) as [->|(t' & b & ->)].
        + exists a, a. repeat split; auto. cbn. auto.
        + exists b, a. split; [exact (py_last (a :: t') b)|]. split; [reflexivity|apply cyc_wrap].
      - destruct (nth_error sv j) as [v|] eqn:Ej'; [|apply nth_error_None in Ej'; lia].
        exists v, vp. replace (Z.of_nat (S j) - 1)%Z with (Z.of_nat j) by lia. split; [apply nth_py; auto|]. split; [apply nth_py; auto|]. eapply cyc_next; eauto. }
    destruct G as (v & vp & -> & -> & Hc). cbn [bind]. rewrite al_insert; [|apply incl_refl|apply E; auto]. apply IH. lia.
  Qed.
End Already.
