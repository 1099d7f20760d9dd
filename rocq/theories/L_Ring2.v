(** The region enclosed by a simple polygon, continued: gluing a triangle on; every [encloses] is [ringed]. *)
From Coq Require Import Reals Lra Lia Psatz List Arith.
From Verif Require Import Num Spec S_PolHull L_Geom L_PolHull3 L_Ring.
Import ListNotations.
Open Scope R_scope.

Section Ear.
  Variables (a b c : Pt) (Re : Pt -> Pt -> Prop) (A : region).
  Hypothesis D : 0 < area2 a b c.
  Hypothesis Hac : ~ Re a c.
  Let Old := fun p q : Pt => (p = a /\ q = c) \/ Re p q.
  Let New := fun p q : Pt => (p = a /\ q = b) \/ (p = b /\ q = c) \/ Re p q.
  Let T := in_triangle_of a b c.
  Hypothesis RO : ringed Old A.
  Hypothesis Sep : forall x, A x -> T x -> on_seg a c x.

  Lemma ear_ab x : on_seg a b x -> A x -> x = a.
  Proof. intros H HA. apply (two_sides a b c); [lra|auto|]. apply Sep; auto. apply tri_edge; auto. Qed.
  Lemma ear_bc x : on_seg b c x -> A x -> x = c.
  Proof.
    intros H HA. apply (two_sides c b a); [rewrite area2_rev; lra|apply on_seg_sym; auto|]. apply on_seg_sym, Sep; auto.
    apply tri_turn, tri_edge; auto. rewrite area2_cyc; auto.
  Qed.
  Lemma ear_b : ~ A b.
  Proof. intros H. assert (b = a). { apply ear_ab; auto. apply on_seg_r. } assert (N : area2 a b c = 0) by (rewrite H0; unv; ring). lra. Qed.
  Lemma old_new x : on_edges New x -> ~ on_edges Old x -> on_seg a b x \/ on_seg b c x.
  Proof. intros (p & q & [[-> ->]|[[-> ->]|H]] & S1) N; auto. exfalso. apply N. exists p, q. split; auto. right; auto. Qed.
  Lemma inside_old x : inside Old A x -> inside New (fun y => A y \/ T y) x.
  Proof.
    intros [H N]. split; auto. intros O. destruct (old_new x O N) as [S1|S1].
    - apply ear_ab in S1; auto. subst. apply N. exists a, c. split; [left; auto|apply on_seg_l].
    - apply ear_bc in S1; auto. subst. apply N. exists a, c. split; [left; auto|apply on_seg_r].
  Qed.
  (** the points of the old edge *)
  Lemma ac_off x : in_seg a c x -> ~ on_edges New x.
  Proof.
    intros H (p & q & HE & S1). assert (Nac : a <> c) by (apply (r_edge _ _ RO); left; auto). destruct (in_seg_ends _ _ _ Nac H) as [N1 N2].
    assert (HA : A x). { apply (r_on _ _ RO). exists a, c. split; [left; auto|apply in_seg_on; auto]. }
    destruct HE as [[-> ->]|[[-> ->]|HE]]; [apply ear_ab in S1; auto|apply ear_bc in S1; auto|].
    destruct (r_simple _ _ RO a c p q x); auto; [left; auto|right; auto| |apply in_seg_on; auto]. intros E. injection E as -> ->. auto.
  Qed.
  Lemma tri_off x : in_tri a b c x -> inside New (fun y => A y \/ T y) x.
  Proof.
    intros H. split; [right; apply in_tri_of; auto|]. destruct H as (H1 & H2 & H3). intros (p & q & [[-> ->]|[[-> ->]|HE]] & S1); [apply area_on_seg in S1; lra|apply area_on_seg in S1; lra|].
    assert (HA : A x) by (apply (r_on _ _ RO); exists p, q; split; [right; auto|auto]).
    assert (S2 : on_seg a c x) by (apply Sep; auto; repeat split; lra). apply on_seg_sym, area_on_seg in S2. lra.
  Qed.
  Lemma new_cases x : A x \/ T x -> ~ on_edges New x -> inside Old A x \/ in_seg a c x \/ in_tri a b c x.
  Proof.
    intros H N. assert (NE : on_edges Old x -> in_seg a c x).
    { intros (p & q & [[-> ->]|HE] & S1).
      - apply on_seg_cases in S1. destruct S1 as [->|[->|S1]]; auto; exfalso; apply N; [exists a, b|exists b, c]; split; unfold New; auto using on_seg_l, on_seg_r.
      - exfalso. apply N. exists p, q. split; auto. right; right; auto. }
    assert (DE : on_edges Old x \/ ~ on_edges Old x -> inside Old A x \/ in_seg a c x \/ in_tri a b c x).
    { intros [O|O]; [right; left; auto|]. destruct H as [H|H]; [left; split; auto|]. right; right.
      destruct (tri_cases a b c x D H) as [|[S1|[S1|S1]]]; auto; exfalso.
      - apply N. exists a, b. split; auto. left; auto.
      - apply N. exists b, c. split; auto. right; left; auto.
      - apply O. exists a, c. split; [left; auto|apply on_seg_sym; auto]. }
    (* decide whether x is on the old edge *)
    destruct H as [H|H].
    - destruct (tri_dec a b c x) as [HT|HT].
      + destruct (on_seg_cases _ _ _ (Sep x H HT)) as [->|[->|S1]]; auto; exfalso; apply N; [exists a, b|exists b, c]; split; unfold New; auto using on_seg_l, on_seg_r.
      + left. split; auto. intros O. apply HT. apply -> tri_turn. apply tri_edge; [rewrite area2_cyc, area2_cyc; auto|]. apply on_seg_sym, in_seg_on. auto.
    - destruct (tri_cases a b c x D H) as [HI|[S1|[S1|S1]]]; auto; [exfalso..|].
      + apply N. exists a, b. split; auto. left; auto.
      + apply N. exists b, c. split; auto. right; left; auto.
      + apply on_seg_sym, on_seg_cases in S1. destruct S1 as [->|[->|S1]]; auto; exfalso; apply N; [exists a, b|exists b, c]; split; unfold New; auto using on_seg_l, on_seg_r.
  Qed.
  (** around an inner point of the old edge everything is inside, the left part already before *)
  Lemma ac_near m : in_seg a c m -> nbhd m (fun y => (A y \/ T y) /\ ~ on_edges New y /\ (0 < area2 a c y -> inside Old A y) /\ (area2 a c y < 0 -> in_tri a b c y)).
  Proof.
    intros Hm. assert (Nac : a <> c) by (apply (r_edge _ _ RO); left; auto).
    assert (D3 : 0 < area2 c a b) by (rewrite area2_cyc, area2_cyc; auto).
    assert (Hm' : in_seg c a m). { destruct Hm as (t & Ht & ->). exists (1 - t). split; [lra|]. unv. apply pair_eq; ring. }
    pose proof (r_side _ _ RO a c m (or_introl (conj eq_refl eq_refl)) Hm) as N1.
    destruct (in_seg_area _ _ _ _ Hm' D3) as [G1 G2].
    eapply nbhd_mono; [apply nbhd_and; [exact N1|apply nbhd_and; [apply (nbhd_area _ _ _ G1)|apply (nbhd_area _ _ _ G2)]]|].
    cbv beta. intros y ((Y1 & Y2 & Y0) & Y3 & Y4). assert (Ey : area2 c a y = - area2 a c y) by (unv; ring).
    assert (In1 : area2 a c y < 0 -> in_tri a b c y) by (intros L; repeat split; auto; lra).
    assert (In2 : 0 < area2 a c y -> inside Old A y). { intros L. split; [apply Y1; lra|]. intros O. apply Y0, area_on_seg in O. lra. }
    assert (C : inside New (fun z => A z \/ T z) y).
    { destruct (Rtotal_order (area2 a c y) 0) as [L|[E|G]]; [apply tri_off; auto| |apply inside_old; auto].
      split; [left; apply Y1; lra|]. apply ac_off. assert (S1 : on_seg c a y) by (apply (tri_side c a b); auto; lra). apply on_seg_sym, on_seg_cases in S1.
      destruct S1 as [->|[->|S1]]; auto; exfalso; unv; lra. }
    destruct C as [C1 C2]. auto.
  Qed.

  Lemma ringed_ear : ringed New (fun y => A y \/ T y).
  Proof.
    assert (Nab : a <> b) by (intros ->; unv; lra). assert (Nbc : b <> c) by (intros ->; unv; lra).
    assert (Nac : a <> c) by (apply (r_edge _ _ RO); left; auto).
    assert (D2 : 0 < area2 b c a) by (rewrite area2_cyc; auto). assert (D3 : 0 < area2 c a b) by (rewrite area2_cyc, area2_cyc; auto).
    assert (Tb : forall x, on_seg a b x -> on_seg b c x -> x = b). { intros x H1 H2. apply (two_sides b a c); auto using on_seg_sym. rewrite area2_swap, area2_cyc. lra. }
    assert (ReA : forall p q x, Re p q -> on_seg p q x -> A x). { intros p q x H S1. apply (r_on _ _ RO). exists p, q. split; auto. right; auto. }
    assert (ReN : forall p q, Re p q -> (p, q) <> (a, c)) by (intros p q H E; injection E as -> ->; auto).
    assert (Ra : forall p q x, Re p q -> on_seg p q x -> on_seg a c x -> x = p \/ x = q).
    { intros p q x H S1 S2. apply (r_simple _ _ RO p q a c x); auto; [right; auto|left; auto]. }
    split.
    - intros p q [[-> ->]|[[-> ->]|H]]; auto. apply (r_edge _ _ RO). right; auto.
    - intros x. destruct (r_dec _ _ RO x); auto. destruct (tri_dec a b c x); auto. right. unfold T. tauto.
    - intros x (p & q & [[-> ->]|[[-> ->]|H]] & S1); [right; apply tri_edge; auto|right; apply tri_turn, tri_edge; auto|left; eauto].
    - intros x H. eapply nbhd_mono; [apply nbhd_and; [apply (r_closed _ _ RO x); auto|apply (tri_closed a b c x); unfold T in H; auto]|]. cbv beta. unfold T. intros y. tauto.
    - intros p q r s x [[-> ->]|[[-> ->]|H]] [[-> ->]|[[-> ->]|H']] N S1 S2; try congruence.
      + right; auto.
      + left. apply ear_ab; eauto.
      + left; auto.
      + right. apply ear_bc; eauto.
      + assert (x = a) by (apply ear_ab; eauto). subst. apply Ra; auto. apply on_seg_l.
      + assert (x = c) by (apply ear_bc; eauto). subst. apply Ra; auto. apply on_seg_r.
      + apply (r_simple _ _ RO p q r s x); auto; right; auto.
    - assert (X : forall u v w m, 0 < area2 u v w -> in_seg u v m -> (forall x, in_triangle_of u v w x <-> T x) -> ~ A m ->
                  (forall y, on_edges New y -> on_seg u v y \/ on_seg v w y \/ A y) ->
                  nbhd m (fun y => (0 <= area2 u v y -> A y \/ T y) /\ (area2 u v y < 0 -> ~ (A y \/ T y)) /\ (on_edges New y -> on_seg u v y))).
      { intros u v w m Du Hu ET NA OE. destruct (in_seg_area _ _ _ _ Hu Du) as [H1 H2].
        eapply nbhd_mono; [apply nbhd_and; [apply (tri_near u v w m Du Hu)|apply nbhd_and; [apply (nbhd_area _ _ _ H1)|apply (r_closed _ _ RO m NA)]]|].
        cbv beta. intros y (Hy & Y1 & Y2). rewrite ET in Hy. split; [rewrite <- Hy; auto|]. split; [intros L [HA|HT]; [auto|apply Hy in HT; lra]|].
        intros O. apply OE in O. destruct O as [O|[O|O]]; auto; [apply area_on_seg in O; lra|tauto]. }
      intros p q m [[-> ->]|[[-> ->]|H]] Hm.
      + apply (X a b c); auto. { intros; unfold T; tauto. }
        * intros HA. apply ear_ab in HA; [|apply in_seg_on; auto]. apply in_seg_ends in Hm; auto. tauto.
        * intros y (p & q & [[-> ->]|[[-> ->]|H]] & S1); auto. right; right; eauto.
      + assert (Hm2 := Hm). assert (NA : ~ A m). { intros HA. apply ear_bc in HA; [|apply in_seg_on; auto]. apply in_seg_ends in Hm; auto. tauto. }
        destruct (in_seg_area _ _ _ _ Hm D2) as [G1 G2].
        eapply nbhd_mono; [apply nbhd_and; [apply (tri_near b c a m D2 Hm)|apply nbhd_and; [apply (nbhd_area _ _ _ G2)|apply (r_closed _ _ RO m NA)]]|].
        cbv beta. intros y (Hy & Y1 & Y2). rewrite <- tri_turn in Hy. fold T in Hy. split; [rewrite <- Hy; auto|]. split; [intros L [HA|HT]; [auto|apply Hy in HT; lra]|].
        intros (p & q & [[-> ->]|[[-> ->]|H]] & S1); auto; [apply area_on_seg in S1; lra|exfalso; eauto].
      + assert (NT : ~ T m).
        { intros HT. assert (HA : A m) by (apply (ReA p q); auto; apply in_seg_on; auto). assert (p <> q) by (apply (r_edge _ _ RO); right; auto).
          apply in_seg_ends in Hm as Hm2; auto. destruct (Ra p q m); auto; tauto || (apply in_seg_on; auto). }
        eapply nbhd_mono; [apply nbhd_and; [apply (r_side _ _ RO p q m (or_intror H) Hm)|apply (tri_closed a b c m NT)]|]. cbv beta.
        intros y ((Y1 & Y2 & Y3) & Y4). split; [auto|]. split; [intros L [HA|HT]; [apply Y2 in L; auto|auto]|].
        intros (p' & q' & [[-> ->]|[[-> ->]|H']] & S1).
        * exfalso. apply Y4. apply tri_edge; auto.
        * exfalso. apply Y4. apply tri_turn, tri_edge; auto.
        * apply Y3. exists p', q'. split; [right; auto|auto].
    - intros x H N. destruct (new_cases x H N) as [[I1 I2]|[I|I]].
      + eapply nbhd_mono; [apply (r_open _ _ RO x); auto|]. auto.
      + eapply nbhd_mono; [apply (ac_near x I)|]. cbv beta. tauto.
      + eapply nbhd_mono; [apply (in_tri_nbhd _ _ _ _ I)|]. intros y Hy. right. apply in_tri_of; auto.
    - set (P := inside New (fun y => A y \/ T y)). set (m := along a c (1 / 2)). assert (Hm : in_seg a c m) by (exists (1 / 2); split; [lra|auto]).
      destruct (nbhd_convex _ _ (ac_near m Hm)) as (Q & NQ & QP & QC).
      assert (QI : forall y, Q y -> P y). { intros y Hy. apply QP in Hy. split; tauto. }
      destruct (nbhd_line m (vsub b m) Q NQ) as (r & Hr & HQ).
      assert (ab2 : area2 a c b < 0) by (rewrite area2_swap; lra).
      assert (Hx : forall t, area2 a c (vadd m (smul t (vsub b m))) = t * area2 a c b) by (intros t; unfold m; unv; field).
      set (z1 := vadd m (smul (- (r / 2)) (vsub b m))). set (z2 := vadd m (smul (r / 2) (vsub b m))).
      assert (Q1 : Q z1) by (apply HQ; rewrite Rabs_left; lra). assert (Q2 : Q z2) by (apply HQ; rewrite Rabs_right; lra).
      assert (I1 : inside Old A z1). { apply (QP z1 Q1). unfold z1. rewrite Hx. nra. }
      assert (I2 : in_tri a b c z2). { apply (QP z2 Q2). unfold z2. rewrite Hx. nra. }
      assert (J12 : joined P z1 z2). { apply j_seg. intros z Hz. apply QI. apply (QC z1 z2); auto. }
      assert (All : forall x, P x -> joined P x z1).
      { intros x [Hx1 Hx2]. destruct (new_cases x Hx1 Hx2) as [I|[I|I]].
        - eapply joined_mono; [apply inside_old|]. apply (r_link _ _ RO); auto.
        - apply (j_trans _ _ m). + apply j_seg. intros z Hz. split; [left|apply ac_off].
            * apply (r_on _ _ RO). exists a, c. split; [left; auto|]. destruct I as (s & Hs & ->), Hz as (t & Ht & ->). exists (s + t * (1 / 2 - s)). split; [nra|]. unfold m. unv. apply pair_eq; ring.
            * destruct I as (s & Hs & ->), Hz as (t & Ht & ->). exists (s + t * (1 / 2 - s)). split; [nra|]. unfold m. unv. apply pair_eq; ring.
          + apply j_seg. intros z Hz. apply QI. apply (QC m z1); auto. apply nbhd_at in NQ. auto.
        - apply (j_trans _ _ z2). + apply j_seg. intros z Hz. apply tri_off. apply (in_tri_seg a b c x z2); auto.
          + apply joined_sym; auto. }
      intros x y Hx1 Hy1. apply (j_trans _ _ z1); auto. apply joined_sym; auto.
    - destruct (r_bound _ _ RO) as [M HM]. exists (Rmax M (norm a + norm b + norm c)). intros x [H|H].
      + eapply Rle_trans; [apply HM; auto|apply Rmax_l].
      + eapply Rle_trans; [apply (hull_bound a b c); auto|apply Rmax_r].
  Qed.
End Ear.

Lemma cyc_vertex {B} (l : list B) a b : In (a, b) (cyc_edges l) -> In a l /\ In b l.
Proof. apply cyc_in. Qed.
Lemma cyc_turn {B} (l : list B) a e : In e (cyc_edges (a :: l)) <-> In e (cyc_edges (l ++ [a])).
Proof.
  split; apply cyc_rotation.
  - exists (length l). rewrite skipn_app, skipn_all, Nat.sub_diag, firstn_app, firstn_all, Nat.sub_diag. cbn. rewrite app_nil_r. auto.
  - exists 1%nat. auto.
Qed.
(** the turn at a right-most vertex is a left turn, or the ring goes straight up there *)
Definition right_turn_free (u v w : Pt) : Prop := 0 < area2 u v w \/ (fst w = fst v /\ fst u = fst v /\ snd v < snd w /\ snd u < snd v).
Lemma rtf_after u a b c : 0 < area2 a b c -> fst b <= fst a -> fst c <= fst a -> fst u <= fst a -> right_turn_free u a c -> right_turn_free u a b.
Proof.
  intros D Hb Hc Hu X. destruct a as [a1 a2], b as [b1 b2], c as [c1 c2], u as [u1 u2]. unfold right_turn_free in *. unv.
  set (hb := a1 - b1). set (hc := a1 - c1). set (hu := a1 - u1). set (gb := b2 - a2). set (gc := c2 - a2). set (gu := u2 - a2).
  assert (Eb : b1 = a1 - hb) by (unfold hb; ring). assert (Ec : c1 = a1 - hc) by (unfold hc; ring). assert (Eu : u1 = a1 - hu) by (unfold hu; ring).
  assert (Fb : b2 = a2 + gb) by (unfold gb; ring). assert (Fc : c2 = a2 + gc) by (unfold gc; ring). assert (Fu : u2 = a2 + gu) by (unfold gu; ring).
  clearbody hb hc hu gb gc gu. subst b1 b2 c1 c2 u1 u2.
  assert (D' : 0 < gb * hc - hb * gc) by lra. assert (Hb' : 0 <= hb) by lra. assert (Hc' : 0 <= hc) by lra. assert (Hu' : 0 <= hu) by lra. clear D Hb Hc Hu.
  assert (X' : 0 < gc * hu - hc * gu \/ (hc = 0 /\ hu = 0 /\ 0 < gc /\ gu < 0)) by (destruct X as [X|X]; [left|right]; lra). clear X.
  assert (G : 0 < gb * hu - hb * gu \/ (hb = 0 /\ hu = 0 /\ 0 < gb /\ gu < 0)).
  { destruct Hc' as [Hc'|Hc']; [|subst hc].
    - destruct X' as [X'|X']; [|lra].
      assert (I : hc * (gb * hu - hb * gu) = hb * (gc * hu - hc * gu) + hu * (gb * hc - hb * gc)) by ring.
      destruct Hb' as [Hb'|Hb'].
      + left. assert (0 < hb * (gc * hu - hc * gu)) by (apply Rmult_lt_0_compat; auto). assert (0 <= hu * (gb * hc - hb * gc)) by (apply Rmult_le_pos; lra). nra.
      + destruct Hu' as [Hu'|Hu'].
        * left. assert (0 < hu * (gb * hc - hb * gc)) by (apply Rmult_lt_0_compat; auto). subst hb. nra.
        * right. subst hb hu. repeat split; auto; nra.
    - exfalso. assert (0 < gc). { destruct X' as [X'|X']; [|lra]. apply Rnot_le_lt. intros L. assert (gc * hu <= 0) by nra. lra. } assert (0 <= hb * gc) by (apply Rmult_le_pos; lra). lra. }
  destruct G as [G|G]; [left|right]; lra.
Qed.
Lemma rtf_before a b c w : 0 < area2 a b c -> fst b <= fst c -> fst a <= fst c -> fst w <= fst c -> right_turn_free a c w -> right_turn_free b c w.
Proof.
  intros D Hb Ha Hw X. set (m := fun p : Pt => (fst p, - snd p)).
  assert (Y : right_turn_free (m w) (m c) (m b)).
  { apply (rtf_after (m w) (m c) (m b) (m a)); unfold m; cbn [fst snd]; auto.
    - destruct a, b, c. unv. lra.
    - unfold right_turn_free in *. destruct a, c, w. unv. lra. }
  unfold right_turn_free, m in *. destruct b, c, w. unv. lra.
Qed.

Lemma enc_ring V A : encloses V A -> NoDup V /\ (3 <= length V)%nat /\ ringed (fun a b => In (a, b) (cyc_edges V)) A /\
  forall u v w, In (u, v) (cyc_edges V) -> In (v, w) (cyc_edges V) -> (forall z, In z V -> fst z <= fst v) -> right_turn_free u v w.
Proof.
  induction 1 as [a b c D|a b c l A D H IH Sep|a l A H IH|l A B H IH E].
  - assert (Nab : a <> b) by (intros ->; unv; lra). assert (Nbc : b <> c) by (intros ->; unv; lra). assert (Nca : c <> a) by (intros ->; unv; lra).
    split. { repeat constructor; cbn; intuition congruence. } split; [auto|]. split.
    + eapply ringed_ext; [| |apply (ringed_triangle a b c D)]; [|tauto]. cbv beta. intros p q. cbn. split.
      * intros [[-> ->]|[[-> ->]|[-> ->]]]; auto.
      * intros [E|[E|[E|[]]]]; injection E as <- <-; auto.
    + cbn. intros u v w H1 H2 _. left. destruct H1 as [E|[E|[E|[]]]]; injection E as <- <-; (destruct H2 as [E|[E|[E|[]]]]; injection E; intros; subst; try congruence);
        first [exfalso; congruence|exact D|rewrite area2_cyc; exact D|rewrite area2_cyc, area2_cyc; exact D].
  - destruct IH as (ND & Len & RO & RT).
    assert (EO : cyc_edges (a :: c :: l) = (a, c) :: combine (c :: l) (l ++ [a])) by auto.
    assert (EN : cyc_edges (a :: b :: c :: l) = (a, b) :: (b, c) :: combine (c :: l) (l ++ [a])) by auto.
    set (Re := fun p q : Pt => In (p, q) (combine (c :: l) (l ++ [a]))).
    assert (Ha : ~ In a (c :: l)) by (inversion ND; auto).
    assert (Hac : ~ Re a c). { intros X. apply in_combine_l in X. auto. }
    assert (RO' : ringed (fun p q => (p = a /\ q = c) \/ Re p q) A).
    { eapply ringed_ext; [| |exact RO]; [|tauto]. cbv beta. intros p q. rewrite EO. unfold Re. cbn [In]. split; intros [X|X]; auto; [injection X as <- <-; auto|destruct X as [-> ->]; auto]. }
    assert (VA : forall v, In v (a :: c :: l) -> A v).
    { intros v Hv. destruct (cyc_from _ _ Hv) as [w Hw]. apply (r_on _ _ RO). exists v, w. split; auto. apply on_seg_l. }
    assert (NbA : ~ A b) by (eapply ear_b; eauto).
    assert (Nb : ~ In b (a :: c :: l)) by (intros X; apply NbA, VA; auto).
    split. { inversion ND as [|? ? N1 N2]; subst. constructor; [|constructor; auto]. - intros [->|X]; [apply Nb; left; auto|auto]. - intros X. apply Nb. right; auto. }
    split. { cbn in *. lia. } split.
    + eapply ringed_ext; [| |apply (ringed_ear a b c Re A D Hac RO' Sep)]; [|tauto]. cbv beta. intros p q. rewrite EN. unfold Re. cbn [In]. split.
      * intros [[-> ->]|[[-> ->]|X]]; auto.
      * intros [X|[X|X]]; auto; injection X as <- <-; auto.
    + intros u v w H1 H2 Mx. rewrite EN in H1, H2.
      assert (Rel : forall p q, Re p q -> In p (c :: l)) by (intros p q X; apply in_combine_l in X; auto).
      assert (Rer : forall p q, Re p q -> In q (a :: c :: l)). { intros p q X. apply in_combine_r in X. apply in_app_or in X. destruct X as [X|[->|[]]]; [right; right; auto|left; auto]. }
      assert (MxO : forall z, In z (a :: c :: l) -> fst z <= fst v). { intros z [->|Hz]; apply Mx; [left; auto|right; right; auto]. }
      assert (fb : fst b <= fst v) by (apply Mx; right; left; auto). assert (fa : fst a <= fst v) by (apply Mx; left; auto). assert (fc : fst c <= fst v) by (apply Mx; right; right; left; auto).
      destruct H1 as [X|[X|H1]]; [injection X as <- <-|injection X as <- <-|]; (destruct H2 as [Y|[Y|H2]]; [injection Y; intros; subst|injection Y; intros; subst|]).
      * exfalso; apply Nb; left; auto.
      * left; auto.
      * exfalso. apply Nb. right. apply (Rel _ _ H2).
      * exfalso. apply Ha. left; auto.
      * exfalso. apply Nb. right; left; auto.
      * apply (rtf_before a b c w); auto. { apply MxO. apply (Rer _ _ H2). } apply RT; auto; rewrite EO; [left; auto|right; auto].
      * apply (rtf_after u v w c); auto. { apply MxO. right. apply (Rel _ _ H1). } apply RT; auto; rewrite EO; [right; auto|left; auto].
      * exfalso. apply Nb. apply (Rer _ _ H1).
      * apply RT; auto; rewrite EO; right; auto.
  - destruct IH as (ND & Len & RO & RT). split. { apply (Permutation.Permutation_NoDup (l := a :: l)); auto. apply Permutation.Permutation_cons_append. }
    split. { rewrite app_length. cbn in *. lia. } split.
    + eapply ringed_ext; [| |exact RO]; [|tauto]. cbv beta. intros p q. apply cyc_turn.
    + intros u v w H1 H2 Mx. apply RT; try (apply cyc_turn; auto). intros z Hz. apply Mx. apply in_or_app. destruct Hz as [->|Hz]; [right; left; auto|left; auto].
  - destruct IH as (ND & Len & RO & RT). split; auto. split; auto. split; auto. eapply ringed_ext; [| |exact RO]; [tauto|auto].
Qed.
