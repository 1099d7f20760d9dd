(** Gift wrapping computes the convex hull of points in general position. *)
From Coq Require Import Reals Lra Psatz List Bool Arith Lia.
From Verif Require Import Num Spec M_Cg M_Hull L_Geom L_Cg.
Import ListNotations.
Open Scope R_scope.

(** *** Convex combinations *)
Lemma vadd_0_l p : vadd (0, 0) p = p.
Proof. destruct p; unv; f_equal; ring. Qed.
Lemma wsum_zero ps : wsum (map (fun _ => 0) ps) ps = (0, 0).
Proof. induction ps as [|[x y] ps IH]; simpl; auto. rewrite IH. unv. f_equal; ring. Qed.
Lemma rsum_zero {A} (l : list A) : rsum (map (fun _ => 0) l) = 0.
Proof. induction l; unfold rsum in *; simpl; lra. Qed.
Lemma in_hull_mem ps p : In p ps -> in_hull ps p.
Proof.
  induction ps as [|a ps IH]; [intros []|]. intros [->|H].
  - exists (1 :: map (fun _ => 0) ps). repeat split.
    + simpl. rewrite map_length. reflexivity.
    + constructor; [lra|]. apply Forall_forall. intros w Hw. apply in_map_iff in Hw as (_ & <- & _). lra.
    + unfold rsum. simpl. change (1 + rsum (map (fun _ => 0) ps) = 1). rewrite rsum_zero. lra.
    + simpl. rewrite wsum_zero. destruct p; unv; f_equal; ring.
  - destruct (IH H) as (ws & L & F & S & E). exists (0 :: ws). repeat split.
    + simpl. congruence.
    + constructor; [lra|auto].
    + unfold rsum in *. simpl. lra.
    + simpl. rewrite E. destruct a, p; unv; f_equal; ring.
Qed.
Fixpoint mix (t : R) (u v : list R) : list R :=
  match u, v with
  | x :: u', y :: v' => ((1 - t) * x + t * y) :: mix t u' v'
  | _, _ => []
  end.
Lemma mix_facts t ps : forall u v, length u = length ps -> length v = length ps ->
  length (mix t u v) = length ps /\ rsum (mix t u v) = (1 - t) * rsum u + t * rsum v /\
  wsum (mix t u v) ps = along (wsum u ps) (wsum v ps) t.
Proof.
  induction ps as [|p ps IH]; intros [|x u] [|y v] Lu Lv; simpl in *; try discriminate.
  - repeat split. unfold rsum; simpl; ring. unv; f_equal; ring.
  - destruct (IH u v) as (A & B & C); [congruence|congruence|]. repeat split.
    + congruence.
    + unfold rsum in *. simpl. rewrite B. ring.
    + rewrite C. destruct p, (wsum u ps), (wsum v ps); unv. f_equal; ring.
Qed.
Lemma mix_pos t : 0 <= t <= 1 -> forall u v, Forall (fun w => 0 <= w) u -> Forall (fun w => 0 <= w) v ->
  Forall (fun w => 0 <= w) (mix t u v).
Proof.
  intros Ht. induction u as [|x u IH]; intros [|y v] Hu Hv; simpl; auto.
  inversion_clear Hu. inversion_clear Hv. constructor; auto. nra.
Qed.
Lemma in_hull_convex ps : convex (in_hull ps).
Proof.
  intros p q r (u & Lu & Fu & Su & Eu) (v & Lv & Fv & Sv & Ev) (t & Ht & ->).
  destruct (mix_facts t ps u v Lu Lv) as (A & B & C).
  exists (mix t u v). repeat split; auto.
  - apply mix_pos; auto.
  - rewrite B, Su, Sv. ring.
  - rewrite C, Eu, Ev. reflexivity.
Qed.
(** a convex set containing the points contains the hull *)
Lemma convex_triangle S a b c (al be ga : R) : convex S -> S a -> S b -> S c ->
  0 <= al -> 0 <= be -> 0 <= ga -> al + be + ga = 1 ->
  S (vadd (smul al a) (vadd (smul be b) (smul ga c))).
Proof.
  intros HS Ha Hb Hc H1 H2 H3 H.
  destruct (Req_dec (be + ga) 0) as [E|E].
  - assert (be = 0) by lra. assert (ga = 0) by lra. assert (al = 1) by lra. subst.
    replace (vadd (smul 1 a) (vadd (smul 0 b) (smul 0 c))) with a; auto.
    destruct a, b, c; unv; f_equal; ring.
  - apply (HS a (along b c (ga / (be + ga)))); auto.
    + apply (HS b c); auto. exists (ga / (be + ga)). split; auto.
      assert (0 < be + ga) by lra. split.
      * apply Rmult_le_pos; auto. left. apply Rinv_0_lt_compat; auto.
      * apply Rmult_le_reg_r with (be + ga); auto. unfold Rdiv. rewrite Rmult_assoc, Rinv_l by auto. lra.
    + exists (be + ga). split; [lra|]. replace al with (1 - be - ga) by lra.
      destruct a, b, c; unv; apply pair_eq; field; auto.
Qed.
Lemma cross_wsum v ps : forall ws, length ws = length ps ->
  forall k, (forall p, In p ps -> k <= cross v p) -> Forall (fun w => 0 <= w) ws ->
  k * rsum ws <= cross v (wsum ws ps).
Proof.
  induction ps as [|p ps IH]; intros [|w ws] L k Hk F; simpl in *; try discriminate.
  - unfold rsum; simpl. destruct v; unv. lra.
  - inversion_clear F. assert (A : k * rsum ws <= cross v (wsum ws ps)) by (apply IH; auto).
    assert (B : k <= cross v p) by auto.
    unfold rsum in *. simpl.
    replace (cross v (vadd (smul w p) (wsum ws ps))) with (w * cross v p + cross v (wsum ws ps))
      by (destruct v, p, (wsum ws ps); unv; ring). nra.
Qed.
Lemma area_hull a b ps q : (forall p, In p ps -> 0 <= area2 a b p) -> in_hull ps q -> 0 <= area2 a b q.
Proof.
  intros H (ws & L & F & S & <-).
  assert (K : cross (vsub b a) a * rsum ws <= cross (vsub b a) (wsum ws ps)).
  { apply cross_wsum; auto. intros p Hp. specialize (H p Hp). destruct a, b, p; unv; lra. }
  rewrite S in K. destruct a, b, (wsum ws ps); unv; lra.
Qed.
Lemma in_hull_sub ps qs q : (forall p, In p qs -> In p ps) -> in_hull qs q -> in_hull ps q.
Proof.
  intros H (ws & L & F & S & <-). revert ws L F S.
  assert (G : forall qs, (forall p, In p qs -> in_hull ps p) -> forall ws, length ws = length qs ->
     Forall (fun w => 0 <= w) ws -> 0 < rsum ws -> in_hull ps (smul (/ rsum ws) (wsum ws qs))).
  { clear. induction qs as [|p qs IH]; intros H [|w ws] L F S; simpl in *; try discriminate.
    - unfold rsum in S; simpl in S; lra.
    - inversion_clear F. change (rsum (w :: ws)) with (w + rsum ws) in *.
      assert (Hs : 0 <= rsum ws).
      { clear - H1. induction H1; unfold rsum in *; simpl; lra. }
      destruct (Req_dec (rsum ws) 0) as [E|E].
      + assert (Z : wsum ws qs = (0, 0)).
        { assert (A : Forall (fun w => w = 0) ws).
          { clear - H1 E. induction ws; constructor; inversion_clear H1; unfold rsum in *; simpl in *.
            - assert (0 <= fold_right Rplus 0 ws) by (clear - H0; induction H0; simpl; lra). lra.
            - apply IHws; auto. assert (0 <= fold_right Rplus 0 ws) by (clear - H0; induction H0; simpl; lra). lra. }
          clear - A. revert qs. induction A; intros [|q qs]; simpl; auto. rewrite IHA, H. destruct q; unv; f_equal; ring. }
        rewrite Z, E. rewrite E in S. replace (smul (/ (w + 0)) (vadd (smul w p) (0, 0))) with p; [apply H; auto|].
        destruct p; unv; apply pair_eq; field; lra.
      + assert (P : in_hull ps (smul (/ rsum ws) (wsum ws qs))) by (apply IH; auto; lra).
        eapply in_hull_convex; [apply (H p); auto | exact P|].
        exists (rsum ws / (w + rsum ws)). split.
        * split; [apply Rmult_le_pos; [lra|left; apply Rinv_0_lt_compat; lra]|].
          apply Rmult_le_reg_r with (w + rsum ws); auto. unfold Rdiv. rewrite Rmult_assoc, Rinv_l by lra. lra.
        * destruct p, (wsum ws qs); unv; apply pair_eq; field; lra. }
  intros ws L F S. specialize (G qs (fun p Hp => in_hull_mem ps p (H p Hp)) ws L F ltac:(lra)).
  rewrite S in G. replace (smul (/ 1) (wsum ws qs)) with (wsum ws qs) in G; auto.
  destruct (wsum ws qs); unv; apply pair_eq; field.
Qed.
Lemma in_triangle a b c q : 0 < area2 a b c -> 0 <= area2 a b q -> 0 <= area2 b c q -> 0 <= area2 c a q ->
  forall S, convex S -> S a -> S b -> S c -> S q.
Proof.
  intros HA H1 H2 H3 S HS Ha Hb Hc. set (A := area2 a b c) in *.
  assert (E : area2 a b q + area2 b c q + area2 c a q = A) by (unfold A; destruct a, b, c, q; unv; ring).
  assert (I : 0 < / A) by (apply Rinv_0_lt_compat; auto).
  assert (Q : q = vadd (smul (area2 b c q / A) a) (vadd (smul (area2 c a q / A) b) (smul (area2 a b q / A) c))).
  { unfold A in *. destruct a, b, c, q; unv; apply pair_eq; field; lra. }
  rewrite Q. apply convex_triangle; auto; try (apply Rmult_le_pos; lra).
  unfold Rdiv. rewrite <- !Rmult_plus_distr_r.
  replace (area2 b c q + area2 c a q + area2 a b q) with A by lra. apply Rinv_r; lra.
Qed.

(** *** The wrapping step *)
Section Wrap.
  Variable points : list Pt.
  Let n := length points.
  Let P := nthp points.
  Hypothesis GP : general_position points.

  Lemma P_in i : (i < n)%nat -> In (P i) points.
  Proof. intros. apply nth_In; auto. Qed.
  Lemma P_inj i j : (i < n)%nat -> (j < n)%nat -> P i = P j -> i = j.
  Proof. intros. eapply NoDup_nth; eauto. apply GP. Qed.
  Lemma gp_idx i j k : (i < n)%nat -> (j < n)%nat -> (k < n)%nat -> i <> j -> j <> k -> i <> k ->
    TH < Rabs (area2 (P i) (P j) (P k)).
  Proof.
    intros. apply GP; auto using P_in; intros E; apply P_inj in E; auto.
  Qed.
  Lemma ccw_deg i k : is_ccw (P i) (P i) (P k) = false.
  Proof. apply is_ccw_false. replace (area2 (P i) (P i) (P k)) with 0 by (unv; ring). pose proof TH_pos; lra. Qed.
  Lemma ccw_deg2 i k : is_ccw (P i) (P k) (P k) = false.
  Proof. apply is_ccw_false. replace (area2 (P i) (P k) (P k)) with 0 by (unv; ring). pose proof TH_pos; lra. Qed.

  (** [p] can be seen with all other points on one side of some line through it *)
  Definition extreme (p : nat) : Prop :=
    exists v, v <> (0, 0) /\ forall j, (j < n)%nat -> j <> p -> 0 <= cross v (vsub (P j) (P p)).
  Definition beats (p q i : nat) : Prop := 0 < area2 (P p) (P q) (P i).

  Lemma cross3 (u v a b c : Pt) : cross a c * cross v b = cross a b * cross v c + cross b c * cross v a.
  Proof. destruct a, b, c, v; unv; ring. Qed.
  Lemma par_zero (v a c : Pt) : v <> (0, 0) -> cross v a = 0 -> cross v c = 0 -> cross a c = 0.
  Proof.
    intros Hv H1 H2. destruct v as [vx vy], a as [ax ay], c as [cx cy]; unv.
    destruct (Req_dec vx 0) as [E|E].
    - subst vx. assert (Hy : vy <> 0) by (intros ->; apply Hv; reflexivity).
      assert (ax = 0) by nra. assert (cx = 0) by nra. subst. ring.
    - apply Rmult_eq_reg_l with vx; auto. 
      replace (vx * (ax * cy - ay * cx)) with (ax * (vx * cy - vy * cx) - cx * (vx * ay - vy * ax)) by ring.
      rewrite H1, H2. ring.
  Qed.
  Lemma beats_trans p a b c : extreme p ->
    (p < n)%nat -> (a < n)%nat -> (b < n)%nat -> (c < n)%nat ->
    a <> p -> b <> p -> c <> p -> a <> c ->
    beats p a b -> beats p b c -> beats p a c.
  Proof.
    intros (v & Hv & Hext) Hp Ha Hb Hc Ap Bp Cp AC H1 H2. unfold beats, area2 in *.
    set (A := vsub (P a) (P p)) in *. set (B := vsub (P b) (P p)) in *. set (C := vsub (P c) (P p)) in *.
    pose proof (Hext a Ha Ap) as VA. pose proof (Hext b Hb Bp) as VB. pose proof (Hext c Hc Cp) as VC.
    fold A in VA. fold B in VB. fold C in VC.
    assert (NZ : cross A C <> 0).
    { pose proof (gp_idx p a c Hp Ha Hc ltac:(auto) AC ltac:(auto)) as G. unfold area2 in G. fold A C in G.
      intros E. rewrite E, Rabs_R0 in G. pose proof TH_pos. lra. }
    pose proof (cross3 v v A B C) as I.
    destruct (Req_dec (cross v A) 0) as [ZA|ZA]; destruct (Req_dec (cross v C) 0) as [ZC|ZC].
    - exfalso. apply NZ, (par_zero v); auto.
    - assert (0 < cross v C) by lra. assert (0 < cross A B * cross v C) by (apply Rmult_lt_0_compat; auto). nra.
    - assert (0 < cross v A) by lra. assert (0 < cross B C * cross v A) by (apply Rmult_lt_0_compat; auto). nra.
    - assert (0 < cross v A) by lra. assert (0 < cross v C) by lra.
      assert (0 < cross A B * cross v C) by (apply Rmult_lt_0_compat; auto).
      assert (0 < cross B C * cross v A) by (apply Rmult_lt_0_compat; auto). nra.
  Qed.

  Lemma next_spec p : (2 <= n)%nat -> (p < n)%nat -> extreme p ->
    let q := next_q points p in
    (q < n)%nat /\ q <> p /\ forall i, (i < n)%nat -> i <> p -> i <> q -> TH < area2 (P p) (P q) (P i).
  Proof.
    intros Hn Hp He. unfold next_q. fold n.
    assert (Inv : forall m q0, (m <= n)%nat -> (q0 < n)%nat -> q0 <> p ->
       let q := fold_left (wrap_step points p) (seq 0 m) q0 in
       (q < n)%nat /\ q <> p /\ forall i, (i < m)%nat -> i <> p -> i <> q -> beats p q i).
    { induction m as [|m IH]; intros q0 Hm Hq0 Hq0p.
      - simpl. repeat split; auto. intros; lia.
      - rewrite seq_S, fold_left_app. cbn [fold_left plus].
        destruct (IH q0 ltac:(lia) Hq0 Hq0p) as (Q1 & Q2 & Q3).
        set (q := fold_left (wrap_step points p) (seq 0 m) q0) in *. unfold wrap_step at 1 2 3 4.
        change (nthp points) with P.
        destruct (Nat.eq_dec m p) as [->|Emp].
        { rewrite ccw_deg. repeat split; auto. intros i Hi Hip Hiq. apply Q3; auto. lia. }
        destruct (Nat.eq_dec m q) as [Emq|Emq].
        { rewrite <- Emq in *. rewrite ccw_deg2. repeat split; auto. intros i Hi Hip Hiq. apply Q3; auto. lia. }
        pose proof (gp_idx p m q Hp ltac:(lia) Q1 ltac:(auto) ltac:(auto) ltac:(auto)) as G.
        destruct (is_ccw (P p) (P m) (P q)) eqn:E.
        + apply is_ccw_iff in E. pose proof TH_pos. repeat split; auto; try lia.
          intros i Hi Hip Hiq. destruct (Nat.eq_dec i q) as [->|Eiq]; [unfold beats; lra|].
          apply (beats_trans p m q i); auto; try lia; [unfold beats; lra|]. apply Q3; auto; lia.
        + apply is_ccw_false in E. pose proof TH_pos. repeat split; auto.
          intros i Hi Hip Hiq. destruct (Nat.eq_dec i m) as [->|Eim].
          * unfold beats. rewrite area2_swap. unfold Rabs in G. destruct (Rcase_abs (area2 (P p) (P m) (P q))); lra.
          * apply Q3; auto; lia. }
    assert (H0 : ((p + 1) mod n < n)%nat) by (apply Nat.mod_upper_bound; lia).
    assert (H1 : ((p + 1) mod n)%nat <> p).
    { destruct (Nat.eq_dec (p + 1) n) as [E|E].
      - rewrite E, Nat.mod_same by lia. lia.
      - rewrite Nat.mod_small by lia. lia. }
    destruct (Inv n _ (le_n n) H0 H1) as (A & B & C). repeat split; auto.
    intros i Hi Hip Hiq. specialize (C i Hi Hip Hiq). unfold beats in C.
    pose proof (gp_idx p _ i Hp A Hi ltac:(auto) ltac:(auto) ltac:(auto)) as G.
    rewrite Rabs_pos_eq in G by lra. exact G.
  Qed.
  Lemma next_extreme p : (2 <= n)%nat -> (p < n)%nat -> extreme p -> extreme (next_q points p).
  Proof.
    intros Hn Hp He. destruct (next_spec p Hn Hp He) as (A & B & C). set (q := next_q points p) in *.
    exists (vsub (P q) (P p)). split.
    - intros E. assert (Eq : P q = P p).
      { destruct (P q), (P p); unv. injection E; intros; f_equal; lra. }
      apply P_inj in Eq; auto.
    - intros j Hj Hjq. destruct (Nat.eq_dec j p) as [->|Hjp].
      + right. destruct (P q), (P p); unv. ring.
      + specialize (C j Hj Hjp Hjq). pose proof TH_pos.
        replace (cross (vsub (P q) (P p)) (vsub (P j) (P q))) with (area2 (P p) (P q) (P j))
          by (destruct (P q), (P p), (P j); unv; ring). lra.
  Qed.
  Lemma next_inj p p' : (2 <= n)%nat -> (p < n)%nat -> (p' < n)%nat -> extreme p -> extreme p' ->
    next_q points p = next_q points p' -> p = p'.
  Proof.
    intros Hn Hp Hp' He He' E. destruct (Nat.eq_dec p p') as [|D]; auto. exfalso.
    destruct (next_spec p Hn Hp He) as (A & B & C). destruct (next_spec p' Hn Hp' He') as (A' & B' & C').
    rewrite <- E in *. pose proof (C p' Hp' ltac:(auto) ltac:(auto)) as X. pose proof (C' p Hp ltac:(auto) ltac:(auto)) as Y.
    rewrite area2_rev in Y. pose proof TH_pos. lra.
  Qed.

  (** *** The leftmost point *)
  Definition lex_le (a b : Pt) : Prop := fst a < fst b \/ (fst a = fst b /\ snd b <= snd a).
  Lemma leftmost_spec : (1 <= n)%nat ->
    (leftmost points < n)%nat /\ forall j, (j < n)%nat -> lex_le (P (leftmost points)) (P j).
  Proof.
    intros Hn. unfold leftmost. fold n.
    assert (Inv : forall m, (m < n)%nat ->
      let l := fold_left (leftmost_step points) (seq 1 m) 0%nat in
      (l < n)%nat /\ forall j, (j <= m)%nat -> lex_le (P l) (P j)).
    { induction m as [|m IH]; intros Hm.
      - simpl. split; auto. intros j Hj. assert (j = 0)%nat by lia. subst. right. lra.
      - rewrite seq_S, fold_left_app. cbn [fold_left]. destruct (IH ltac:(lia)) as [A B].
        set (l := fold_left (leftmost_step points) (seq 1 m) 0%nat) in *.
        unfold leftmost_step. change (nthp points) with P. nR. simpl plus.
        destruct (Rltb_spec (fst (P (S m))) (fst (P l))) as [L|L].
        + split; auto. intros j Hj. destruct (Nat.eq_dec j (S m)) as [->|]; [right; lra|].
          destruct (B j ltac:(lia)) as [K|K]; left; lra.
        + destruct (Reqb_spec (fst (P (S m))) (fst (P l))) as [Q|Q].
          * destruct (Rltb_spec (snd (P l)) (snd (P (S m)))) as [S1|S1].
            -- split; auto. intros j Hj. destruct (Nat.eq_dec j (S m)) as [->|]; [right; lra|].
               destruct (B j ltac:(lia)) as [K|K]; [left|right]; lra.
            -- split; auto. intros j Hj. destruct (Nat.eq_dec j (S m)) as [->|]; [right; lra|]. apply B; lia.
          * split; auto. intros j Hj. destruct (Nat.eq_dec j (S m)) as [->|]; [left; lra|]. apply B; lia. }
    destruct (Inv (n - 1)%nat ltac:(lia)) as [A B]. split; auto. intros j Hj. apply B. lia.
  Qed.
  Lemma leftmost_extreme : (1 <= n)%nat -> extreme (leftmost points).
  Proof.
    intros Hn. destruct (leftmost_spec Hn) as [A B]. exists (0, -1). split; [intros E; injection E; intros; lra|].
    intros j Hj _. destruct (B j Hj) as [K|[K _]]; destruct (P j), (P (leftmost points)); unv; lra.
  Qed.

  (** *** The loop *)
  Fixpoint idx_loop (fuel p l : nat) : option (list nat) :=
    match fuel with
    | O => None
    | S f => let q := next_q points p in
             if Nat.eqb q l then Some [p]
             else match idx_loop f q l with None => None | Some h => Some (p :: h) end
    end.
  Lemma hull_idx fuel : forall p l, hull_loop points fuel p l = option_map (map P) (idx_loop fuel p l).
  Proof.
    induction fuel as [|f IH]; intros p l; simpl; auto.
    destruct (Nat.eqb (next_q points p) l); auto. rewrite IH. destruct (idx_loop f (next_q points p) l); auto.
  Qed.

  Inductive path : nat -> list nat -> nat -> Prop :=   (* path p h l: h = p, s p, ..., last with s last = l *)
  | path_one p l : next_q points p = l -> path p [p] l
  | path_cons p h l : path (next_q points p) h l -> path p (p :: h) l.

  Lemma idx_loop_ok l : (2 <= n)%nat -> forall fuel p V,
    (p < n)%nat -> extreme p -> NoDup (p :: V) ->
    (forall x, In x V -> (x < n)%nat /\ extreme x) ->
    (In l (p :: V)) ->
    (forall x, In x (p :: V) -> x = l \/ exists y, In y V /\ next_q points y = x) ->
    (n < fuel + length (p :: V))%nat ->
    exists h, idx_loop fuel p l = Some h /\ path p h l /\ NoDup (h ++ V) /\
      (forall x, In x h -> (x < n)%nat /\ extreme x).
  Proof.
    intros Hn. induction fuel as [|f IH]; intros p V Hp He Nd HV Hl Hpred Hlen.
    - exfalso. assert (length (p :: V) <= n)%nat.
      { rewrite <- (seq_length n 0). apply NoDup_incl_length; auto.
        intros x [<-|Hx]; apply in_seq; [lia|]. destruct (HV x Hx). lia. }
      lia.
    - simpl. set (q := next_q points p). destruct (Nat.eqb_spec q l) as [E|E].
      + exists [p]. split; auto. split; [constructor; auto|]. split; auto. intros x [<-|[]]. auto.
      + destruct (next_spec p Hn Hp He) as (A & B & C). fold q in A, B.
        assert (Heq : extreme q) by (apply next_extreme; auto).
        assert (Nq : ~ In q (p :: V)).
        { intros Hin. destruct (Hpred q Hin) as [K|(y & Hy & Ey)]; [auto|].
          destruct (HV y Hy) as [Hyn Hye].
          assert (y = p) by (apply next_inj; auto). subst y. inversion_clear Nd. contradiction. }
        destruct (IH q (p :: V)) as (h & E1 & E2 & E3 & E4); auto.
        * constructor; auto.
        * intros x [<-|Hx]; auto.
        * right; auto.
        * intros x [<-|Hx].
          -- right. exists p. split; [left; auto|reflexivity].
          -- destruct (Hpred x Hx) as [K|(y & Hy & Ey)]; auto. right. exists y. split; [right; auto|auto].
        * simpl in *. lia.
        * rewrite E1. exists (p :: h). split; auto. split; [constructor; auto|]. split.
          -- simpl. apply (NoDup_Add (a := p) (l := h ++ V)); [|].
             ++ constructor.
             ++ split.
                ** apply NoDup_remove_1 in E3. auto.
                ** apply NoDup_remove_2 in E3. auto.
          -- intros x [<-|Hx]; auto.
  Qed.

  (** consecutive indices along the path, closing with [l] *)
  Lemma path_edges p h l : path p h l ->
    forall a b, In (a, b) (combine h (tl h ++ [l])) -> b = next_q points a.
  Proof.
    induction 1; simpl.
    - intros a b [E|[]]. congruence.
    - inversion H; subst; simpl in *.
      + intros a b [E|[E|[]]]; congruence.
      + intros a b [E|Hin]; [congruence|]. apply IHpath. exact Hin.
  Qed.
  Lemma path_head p h l : path p h l -> hd_error h = Some p.
  Proof. destruct 1; reflexivity. Qed.
End Wrap.
