(** Consecutive visible vertices, and the piece of an edge between their rays. *)
From Coq Require Import Reals Lra Lia Psatz List Arith.
From Verif Require Import Num Spec S_PolHull L_Geom L_PolHull L_PolHull3 L_Ring L_Ring2 L_Lit L_Lit2 L_Order L_Order2 L_Lit3 L_Lit4 L_Lit5.
Import ListNotations.
Open Scope R_scope.

(** [v] and [z] see the piece [x],[x'] of the edge [a],[b] between their rays *)
Record spans (V : list Pt) (A : region) (k v z a b x x' : Pt) : Prop := {
  sp_edge : Ed V a b;
  sp_v : In v V; sp_z : In z V; sp_lv : lit A k v; sp_lz : lit A k z;
  sp_next : nextv V A k v z;
  sp_x : on_seg a b x; sp_x' : on_seg a b x';
  sp_pv : port V A k (-1) v x; sp_pz : port V A k 1 z x';
  sp_rx : exists c, 0 < c /\ x = along k v c; sp_rx' : exists c, 0 < c /\ x' = along k z c;
  sp_pos : 0 < area2 k v z;
  sp_lit : forall c, on_seg a b c -> 0 < area2 k v c -> 0 < area2 k c z -> lit A k c;
  sp_only : forall w, In w V -> lit A k w -> 0 < area2 k v w -> 0 < area2 k w z -> False }.

Lemma first_lit {B} (P : B -> Prop) X Y X' Y' z z' : X ++ z :: Y = X' ++ z' :: Y' -> (forall w, In w X -> ~ P w) -> (forall w, In w X' -> ~ P w) -> P z -> P z' -> z = z'.
Proof.
  revert X'. induction X as [|w X IH]; intros X' E D1 D2 Pz Pz'; destruct X' as [|w' X']; cbn in E; injection E as E0 E; auto.
  - subst. exfalso. apply (D2 w'); auto. left. auto.
  - subst. exfalso. apply (D1 z'); auto. left. auto.
  - apply (IH X'); auto; intros; [apply D1|apply D2]; right; auto.
Qed.
Lemma rot_cons {B} (v : B) L L' : NoDup (v :: L) -> rot (v :: L) (v :: L') -> L = L'.
Proof.
  intros NDv (P & Q & E1 & E2). destruct P as [|p P]; [rewrite app_nil_r in E2; cbn in E1; congruence|].
  cbn in E1. injection E1 as <- E1. destruct Q as [|q Q]; [rewrite app_nil_r in E1; cbn in E2; congruence|].
  cbn in E2. injection E2 as <- E2. exfalso. inversion NDv as [|h t N1 N2]. apply N1. rewrite E1. apply in_or_app. right. left. auto.
Qed.

Section Pair.
  Variables (V : list Pt) (A : region) (k : Pt).
  Hypothesis Enc : encloses V A.
  Hypothesis GP : forall v w, In v V -> In w V -> v <> w -> area2 k v w <> 0.
  Notation Ed := (Ed V).
  Notation Un := (Un V).
  Notation lit := (lit A k).
  Let RO : ringed Ed A := proj1 (proj2 (proj2 (enc_ring V A Enc))).
  Let ND : NoDup V := proj1 (enc_ring V A Enc).
  Let s1 : 1 = 1 \/ 1 = -1 := or_introl eq_refl.
  Let s2 : -1 = 1 \/ -1 = -1 := or_intror eq_refl.

  Lemma br1 p q : br k 1 p q = area2 k p q.
  Proof. unfold br. ring. Qed.
  Lemma br2 p q : br k (-1) p q = area2 k q p.
  Proof. unfold br. rewrite (area2_swap k q p). ring. Qed.
  Lemma area_pl y a b c : area2 k y b * area2 k a c = area2 k y a * area2 k b c + area2 k y c * area2 k a b.
  Proof. pose proof (br_pl k 1 y a b c) as H. rewrite !br1 in H. exact H. Qed.

  Lemma lit_pair a b y : Ed a b -> in_seg a b y -> lit y ->
    exists v z x x', spans V A k v z a b x x' /\ 0 < area2 k v y /\ 0 < area2 k y z /\
      (forall w, In w V -> lit w -> 0 < area2 k y w -> 0 <= area2 k w b -> 0 <= area2 k z w) /\
      (forall w, In w V -> lit w -> 0 < area2 k w y -> 0 <= area2 k a w -> 0 <= area2 k w v).
  Proof.
    intros Hab Iy Ly. pose proof (lit_dir V A k Enc GP a b y Hab Iy Ly) as Pab.
    assert (Uab : Un a b) by (left; auto). assert (Uba : Un b a) by (right; auto).
    destruct (next_lit V A k Enc GP 1 s1 a b y Uab Iy Ly) as (z & Hz & Lz & Z1 & Z2 & Z3 & Z4). { rewrite br1. auto. }
    destruct (next_lit V A k Enc GP (-1) s2 b a y Uba (in_seg_sym _ _ _ Iy) Ly) as (v & Hv & Lv & Y1 & Y2 & Y3 & Y4). { rewrite br2. auto. }
    destruct (arrive V A k Enc GP 1 s1 a b y z) as (x' & Sx' & Px' & Rx'); auto. { rewrite br1. auto. }
    destruct (arrive V A k Enc GP (-1) s2 b a y v) as (x & Sx & Px & Rx); auto using in_seg_sym. { rewrite br2. auto. }
    assert (Ez : 0 < area2 k y z) by (rewrite <- br1; auto). assert (Ev : 0 < area2 k v y) by (rewrite <- br2; auto).
    assert (Ya : 0 < area2 k a y) by (destruct Iy as (t & Ht & ->); replace (area2 k a (along a b t)) with (t * area2 k a b) by (unv; ring); nra).
    assert (Yb : 0 < area2 k y b) by (destruct Iy as (t & Ht & ->); replace (area2 k (along a b t) b) with ((1 - t) * area2 k a b) by (unv; ring); nra).
    assert (Av : 0 <= area2 k a v) by (rewrite <- br2; auto). assert (Zb : 0 <= area2 k z b) by (rewrite <- br1; auto).
    (* v and z lie between a and b, so the angle between them is below pi *)
    assert (Vb : 0 < area2 k v b).
    { pose proof (area_pl a v y b) as P. assert (0 < area2 k a b * area2 k v y) by (apply Rmult_lt_0_compat; auto). assert (0 <= area2 k a v * area2 k y b) by (apply Rmult_le_pos; lra).
      assert (Q : 0 < area2 k a y * area2 k v b) by lra. clear - Q Ya. nra. }
    assert (Pvz : 0 < area2 k v z).
    { pose proof (area_pl v y z b) as P. assert (0 <= area2 k v y * area2 k z b) by (apply Rmult_le_pos; lra). assert (0 < area2 k v b * area2 k y z) by (apply Rmult_lt_0_compat; auto).
      assert (Q : 0 < area2 k v z * area2 k y b) by lra. clear - Q Yb. nra. }
    assert (Nvz : v <> z) by (intros ->; rewrite <- br1, br_self in Pvz; lra).
    exists v, z, x, x'. split; [split; auto using on_seg_sym|repeat split; auto].
    - (* nextv *)
      destruct (cyc_in _ _ _ Hab) as [_ Hb]. apply in_split in Hb as (P & Q & EV).
      assert (Rb : rot V (b :: Q ++ P)) by (exists P, (b :: Q); split; auto).
      set (T := Q ++ P) in *. assert (EncT : encloses (b :: T) A) by (eapply rot_enc; eauto).
      assert (GPT : forall v w, In v (b :: T) -> In w (b :: T) -> v <> w -> area2 k v w <> 0). { intros u w Hu Hw. apply GP; rewrite (rot_in V); eauto. }
      assert (HabT : L_Lit.Ed (b :: T) a b) by (apply (rot_edges V); auto).
      assert (NDT : NoDup (b :: T)) by apply (enc_ring _ _ EncT).
      assert (HzT : In z (b :: T)) by (rewrite <- (rot_in V); eauto). assert (HvT : In v (b :: T)) by (rewrite <- (rot_in V); eauto).
      assert (Z3T : forall v, In v (b :: T) -> lit v -> 0 < br k 1 y v -> 0 <= br k 1 v b -> 0 <= br k 1 z v) by (intros w Hw; apply Z3; rewrite (rot_in V); eauto).
      assert (Y3T : forall w, In w (b :: T) -> lit w -> 0 < br k (-1) y w -> 0 <= br k (-1) w a -> 0 <= br k (-1) v w) by (intros w Hw; apply Y3; rewrite (rot_in V); eauto).
      apply in_split in HvT as (X' & Y' & E').
      assert (Dy : forall w, In w Y' -> ~ lit w) by (intros w; apply (bwd_dark T A k b a y EncT GPT HabT Iy Ly v X' Y' E' Lv Y1 Y2 Y3T Y4)).
      assert (Hz' : In z X'). { rewrite E' in HzT. apply in_app_or in HzT as [|[E|Hz']]; auto; [congruence|]. exfalso. apply (Dy z); auto. }
      apply in_split in Hz' as (X & Q' & ->).
      assert (E2 : b :: T = X ++ z :: (Q' ++ v :: Y')) by (rewrite E', <- app_assoc; auto).
      assert (Dx : forall w, In w X -> ~ lit w) by (intros w; apply (fwd_dark T A k b a y EncT GPT HabT Iy Ly z X _ E2 Lz Z1 Z2 Z3T Z4)).
      exists (Y' ++ X), Q'. split.
      + eapply rot_trans; [exact Rb|]. rewrite E'. exists (X ++ z :: Q'), (v :: Y'). split; auto. cbn [app]. rewrite <- !app_assoc. auto.
      + intros w Hw. apply in_app_or in Hw as [Hw|Hw]; auto.
    - (* the piece between the rays is lit *)
      intros c Sc C1 C2. destruct (Rle_dec 0 (area2 k y c)) as [L|L].
      + apply Z4; auto; rewrite br1; auto.
      + apply Y4; auto using on_seg_sym; rewrite br2; auto. rewrite area2_swap. lra.
    - (* no visible vertex between the rays *)
      intros w Hw Lw W1 W2.
      assert (Wb : 0 < area2 k w b).
      { pose proof (area_pl v w z b) as P. assert (0 <= area2 k v w * area2 k z b) by (apply Rmult_le_pos; lra). assert (0 < area2 k v b * area2 k w z) by (apply Rmult_lt_0_compat; auto).
        assert (Q : 0 < area2 k v z * area2 k w b) by lra. clear - Q Pvz. nra. }
      assert (Aw : 0 < area2 k a w).
      { pose proof (area_pl a v w b) as P. assert (0 < area2 k a b * area2 k v w) by (apply Rmult_lt_0_compat; auto). assert (0 <= area2 k a v * area2 k w b) by (apply Rmult_le_pos; lra).
        assert (Q : 0 < area2 k a w * area2 k v b) by lra. clear - Q Vb. nra. }
      destruct (Rtotal_order (area2 k y w) 0) as [L|[L|L]].
      + assert (0 <= br k (-1) v w) by (apply Y3; auto; rewrite br2; auto; [rewrite area2_swap; lra|lra]). rewrite br2, area2_swap in H. lra.
      + assert (Nyk : k <> y) by (intros E; apply (Un_k V A k Enc GP a b y Uab (in_seg_on _ _ _ Iy)); auto).
        destruct (line_param k y w Nyk L) as (h & Eh).
        assert (Hh : area2 k v w = h * area2 k v y) by (rewrite Eh, <- !br1, br_ray; auto). assert (0 < h) by (clear - Hh W1 Ev; nra).
        assert (h = 1). { apply (lit_unique A k y); auto. rewrite <- Eh; auto. } subst h. rewrite along_1 in Eh. apply (Un_in_V V A Enc a b y Uab Iy). rewrite <- Eh. auto.
      + assert (0 <= br k 1 z w) by (apply Z3; auto; rewrite br1; auto; lra). rewrite br1, area2_swap in H. lra.
    - intros w Hw Lw W1 W2. rewrite <- br1. apply Z3; auto; rewrite br1; auto.
    - intros w Hw Lw W1 W2. rewrite <- br2. apply Y3; auto; rewrite br2; auto.
  Qed.

  Lemma nextv_det v z z' : nextv V A k v z -> nextv V A k v z' -> lit z -> lit z' -> z = z'.
  Proof.
    intros (X & Y & R1 & D1) (X' & Y' & R2 & D2) L L'.
    assert (NDv : NoDup (v :: X ++ z :: Y)) by apply (proj1 (enc_ring _ A (rot_enc _ _ _ R1 Enc))).
    apply (first_lit lit X Y X' Y'); auto. apply (rot_cons v); auto. eapply rot_trans; [apply rot_sym; eauto|eauto].
  Qed.
  Lemma nextv_prev v v' z : nextv V A k v z -> nextv V A k v' z -> lit v -> lit v' -> v = v'.
  Proof.
    intros (X & Y & R1 & D1) (X' & Y' & R2 & D2) L L'.
    assert (R1' : rot V (z :: Y ++ v :: X)). { eapply rot_trans; [exact R1|]. exists (v :: X), (z :: Y). auto. }
    assert (R2' : rot V (z :: Y' ++ v' :: X')). { eapply rot_trans; [exact R2|]. exists (v' :: X'), (z :: Y'). auto. }
    assert (NDv : NoDup (z :: Y ++ v :: X)) by apply (proj1 (enc_ring _ A (rot_enc _ _ _ R1' Enc))).
    assert (E : Y ++ v :: X = Y' ++ v' :: X') by (apply (rot_cons z); auto; eapply rot_trans; [apply rot_sym; eauto|eauto]).
    apply (f_equal (@rev Pt)) in E. rewrite !rev_app_distr in E. cbn [rev] in E. rewrite <- !app_assoc in E. cbn [app] in E.
    apply (first_lit lit (rev X) (rev Y) (rev X') (rev Y')); auto; intros w Hw; rewrite <- in_rev in Hw; auto.
  Qed.

  (** how a visible vertex lies to its neighbours *)
  Definition all_side (s : R) (v : Pt) : Prop := forall n, Un v n -> 0 < br k s v n.
  Lemma side_or s v : s = 1 \/ s = -1 -> In v V -> all_side s v \/ exists n, Un v n /\ br k s v n < 0.
  Proof.
    intros Hs Hv. destruct (cyc_from V v Hv) as [w Hw]. destruct (cyc_to V v Hv) as [u Hu].
    assert (U1 : Un v w) by (left; auto). assert (U2 : Un v u) by (right; auto).
    pose proof (Un_V V A k Enc GP s Hs v w U1) as (_ & _ & _ & B1). pose proof (Un_V V A k Enc GP s Hs v u U2) as (_ & _ & _ & B2).
    destruct (Rlt_dec (br k s v w) 0) as [L|L]; [right; eauto|]. destruct (Rlt_dec (br k s v u) 0) as [L'|L']; [right; eauto|].
    left. intros n [Hn|Hn]; [rewrite (ed_next V A k Enc GP v n w Hn Hw)|rewrite (ed_prev V A k Enc GP v n u Hn Hu)]; lra.
  Qed.

  (** what is behind a visible vertex v on its side s *)
  Lemma leave s v : s = 1 \/ s = -1 -> In v V -> lit v -> (exists n, Un v n /\ 0 < br k s v n) \/ (exists u, foot A k v u) ->
    exists a b y, Ed a b /\ in_seg a b y /\ lit y /\ 0 < br k s v y /\ forall w, In w V -> 0 < br k s v w -> br k s w y < 0.
  Proof.
    intros Hs Hv Lv [N|(u & c & Hc & -> & Au & _)].
    - apply (sweep V A k Enc GP s Hs v 1); auto; [lra|]. rewrite along_1. apply Lv.
    - apply (sweep V A k Enc GP s Hs v c); auto; [lra|]. left. lra.
  Qed.
  Lemma leave_next v : In v V -> lit v -> (exists n, Un v n /\ 0 < area2 k v n) \/ (exists u, foot A k v u) ->
    exists z a b x x', spans V A k v z a b x x'.
  Proof.
    intros Hv Lv H. destruct (leave 1 v s1 Hv Lv) as (a & b & y & Hab & Iy & Ly & By & Sy). { destruct H as [(n & U & B)|H]; auto. left. exists n. rewrite br1. auto. }
    rewrite br1 in By. destruct (lit_pair a b y Hab Iy Ly) as (v' & z & x & x' & Sp & V1 & V2 & _ & V4). pose proof (lit_dir V A k Enc GP a b y Hab Iy Ly) as Pab.
    assert (Ya : 0 < area2 k a y) by (destruct Iy as (t & Ht & ->); replace (area2 k a (along a b t)) with (t * area2 k a b) by (unv; ring); nra).
    destruct (cyc_in _ _ _ Hab) as [Ha _].
    assert (Q : 0 <= area2 k v v'). { apply V4; auto. apply Rnot_lt_le. intros L. assert (br k 1 a y < 0) by (apply Sy; auto; rewrite br1, area2_swap; lra). rewrite br1 in H0. lra. }
    assert (v = v'). { apply (gp_br V k GP 1 s1); auto. apply Sp. rewrite br1. destruct Q as [Q|Q]; auto. exfalso. assert (br k 1 v' y < 0) by (apply Sy; [apply Sp|rewrite br1; auto]). rewrite br1 in H0. lra. }
    subst v'. exists z, a, b, x, x'. auto.
  Qed.
  Lemma leave_prev z : In z V -> lit z -> (exists n, Un z n /\ area2 k z n < 0) \/ (exists u, foot A k z u) ->
    exists v a b x x', spans V A k v z a b x x'.
  Proof.
    intros Hz Lz H. destruct (leave (-1) z s2 Hz Lz) as (a & b & y & Hab & Iy & Ly & By & Sy). { destruct H as [(n & U & B)|H]; auto. left. exists n. rewrite br2, area2_swap. split; auto. lra. }
    rewrite br2 in By. destruct (lit_pair a b y Hab Iy Ly) as (v & z' & x & x' & Sp & V1 & V2 & V3 & _). pose proof (lit_dir V A k Enc GP a b y Hab Iy Ly) as Pab.
    assert (Yb : 0 < area2 k y b) by (destruct Iy as (t & Ht & ->); replace (area2 k (along a b t) b) with ((1 - t) * area2 k a b) by (unv; ring); nra).
    destruct (cyc_in _ _ _ Hab) as [_ Hb].
    assert (Q : 0 <= area2 k z' z). { apply V3; auto. apply Rnot_lt_le. intros L. assert (br k (-1) b y < 0) by (apply Sy; auto; rewrite br2, area2_swap; lra). rewrite br2 in H0. lra. }
    assert (z' = z). { apply (gp_br V k GP 1 s1); auto. apply Sp. rewrite br1. destruct Q as [Q|Q]; auto. exfalso. assert (br k (-1) z' y < 0) by (apply Sy; [apply Sp|rewrite br2; auto]). rewrite br2 in H0. lra. }
    subst z'. exists v, a, b, x, x'. auto.
  Qed.

  (** two consecutive visible vertices: a piece of an edge between them, or the opening in which nothing lies *)
  Lemma nextv_cases v z : nextv V A k v z -> lit v -> lit z ->
    (exists a b x x', spans V A k v z a b x x') \/ (all_side (-1) v /\ bare A k v /\ all_side 1 z /\ bare A k z).
  Proof.
    intros Nx Lv Lz. assert (Hv : In v V /\ In z V). { destruct Nx as (X & Y & R1 & _). rewrite !(rot_in V _ _ R1). split; [left; auto|right; apply in_or_app; right; left; auto]. } destruct Hv as [Hv Hz].
    assert (C1 : ((exists n, Un v n /\ 0 < area2 k v n) \/ (exists u, foot A k v u)) \/ (all_side (-1) v /\ bare A k v)).
    { destruct (side_or (-1) v s2 Hv) as [S1|(n & U & B)]; [|left; left; exists n; rewrite br2, area2_swap in B; split; auto; lra].
      destruct (cyc_from V v Hv) as [w Hw]. destruct (cyc_to V v Hv) as [u Hu].
      destruct (below_same V A k Enc GP (-1) u v w s2 Hu Hw Lv) as (r & Hr & Fr). { apply S1. right. auto. } { apply S1. left. auto. }
      destruct (foot_or_bare V A k Enc v r Hr Fr); auto. }
    assert (C2 : ((exists n, Un z n /\ area2 k z n < 0) \/ (exists u, foot A k z u)) \/ (all_side 1 z /\ bare A k z)).
    { destruct (side_or 1 z s1 Hz) as [S1|(n & U & B)]; [|left; left; exists n; rewrite br1 in B; auto].
      destruct (cyc_from V z Hz) as [w Hw]. destruct (cyc_to V z Hz) as [u Hu].
      destruct (below_same V A k Enc GP 1 u z w s1 Hu Hw Lz) as (r & Hr & Fr). { apply S1. right. auto. } { apply S1. left. auto. }
      destruct (foot_or_bare V A k Enc z r Hr Fr); auto. }
    destruct C1 as [C1|C1].
    { left. destruct (leave_next v Hv Lv C1) as (z' & a & b & x & x' & Sp). assert (z = z') by (apply (nextv_det v); auto; apply Sp). subst. eauto. }
    destruct C2 as [C2|C2]; [|right; tauto].
    left. destruct (leave_prev z Hz Lz C2) as (v' & a & b & x & x' & Sp). assert (v = v') by (apply (nextv_prev v v' z); auto; apply Sp). subst. eauto.
  Qed.

  (** there is at most one opening *)
  Lemma on_ray_bare v c : bare A k v -> lit v -> 0 < c -> A (along k v c) -> c = 1.
  Proof.
    intros Bv [_ Nv] Hc Ac. destruct (Rtotal_order c 1) as [L|[L|L]]; auto; exfalso; [apply (Bv c); auto|].
    apply (Nv (c - 1)); [lra|]. replace (beyond k v (c - 1)) with (along k v c); auto. unfold beyond. unv. apply pair_eq; ring.
  Qed.
  Lemma opening_step v1 v2 x w : In v1 V -> In v2 V -> lit v1 -> lit v2 -> all_side (-1) v1 -> bare A k v1 -> bare A k v2 -> 0 < area2 k v1 v2 -> all_side (-1) v2 ->
    Ed x w -> (x = v2 \/ (0 < area2 k v1 x /\ 0 < area2 k x v2)) -> w = v2 \/ (0 < area2 k v1 w /\ 0 < area2 k w v2).
  Proof.
    intros H1 H2 L1 L2 S1 B1 B2 P12 S2 Hxw Hx. destruct (cyc_in _ _ _ Hxw) as [Ix Iw].
    assert (Hx1 : 0 < area2 k v1 x) by (destruct Hx as [-> |[? _]]; auto).
    assert (Nv1 : k <> v1) by (intros E; apply (vertex_not_k V A k Enc GP v1 H1); auto).
    assert (Nv2 : k <> v2) by (intros E; apply (vertex_not_k V A k Enc GP v2 H2); auto).
    (* the edge does not touch the first ray *)
    assert (T1 : forall t, 0 < t <= 1 -> 0 < area2 k (along x w t) v2 -> area2 k v1 (along x w t) <> 0).
    { intros t Ht Pt' E. destruct (line_param k v1 _ Nv1 E) as (c & Ec). rewrite Ec in Pt'. assert (0 < c). { replace (area2 k (along k v1 c) v2) with (c * area2 k v1 v2) in Pt' by (unv; ring). nra. }
      assert (Ac : A (along k v1 c)). { rewrite <- Ec. apply (r_on _ _ RO). exists x, w. split; auto. exists t. split; auto. lra. }
      assert (c = 1) by (apply (on_ray_bare v1); auto). subst c. rewrite along_1 in Ec.
      assert (Sv : on_seg x w v1) by (exists t; split; [lra|auto]). destruct (vertex_end V A Enc x w v1 Hxw H1 Sv) as [E1|E1].
      - subst x. rewrite <- br1, br_self in Hx1. lra.
      - subst w. assert (0 < br k (-1) v1 x) by (apply S1; right; auto). rewrite br2, area2_swap in H0. lra. }
    assert (T2 : forall t, 0 < t <= 1 -> 0 < area2 k v1 (along x w t) -> area2 k (along x w t) v2 = 0 -> along x w t = v2).
    { intros t Ht Pt' E. rewrite area2_swap in E. destruct (line_param k v2 (along x w t) Nv2) as (c & Ec); [lra|]. rewrite Ec in Pt'. assert (0 < c). { replace (area2 k v1 (along k v2 c)) with (c * area2 k v1 v2) in Pt' by (unv; ring). nra. }
      assert (Ac : A (along k v2 c)). { rewrite <- Ec. apply (r_on _ _ RO). exists x, w. split; auto. exists t. split; auto. lra. }
      assert (c = 1) by (apply (on_ray_bare v2); auto). subst c. rewrite along_1 in Ec. auto. }
    destruct (pt_dec w v2) as [|Nw]; auto. right.
    assert (L1' : forall t, area2 k v1 (along x w t) = (1 - t) * area2 k v1 x + t * area2 k v1 w) by (intros; rewrite <- !br1; apply br_lin).
    assert (L2' : forall t, area2 k (along x w t) v2 = (1 - t) * area2 k x v2 + t * area2 k w v2) by (intros; unv; ring).
    destruct Hx as [-> |[_ Hx2]].
    - assert (W2 : 0 < area2 k w v2) by (rewrite <- br2; apply S2; left; auto). split; auto.
      apply Rnot_le_lt. intros L. set (f0 := area2 k v1 v2) in *. set (f1 := area2 k v1 w) in *.
      assert (Ht : 0 < f0 / (f0 - f1) <= 1). { split; [apply Rdiv_lt_0_compat; lra|]. apply (Rmult_le_reg_r (f0 - f1)); [lra|]. unfold Rdiv. rewrite Rmult_assoc, Rinv_l; lra. }
      apply (T1 (f0 / (f0 - f1)) Ht).
      + rewrite L2'. replace (area2 k v2 v2) with 0 by (unv; ring). nra.
      + rewrite L1'. fold f0 f1. field. lra.
    - destruct (Rlt_dec 0 (area2 k v1 w)) as [A1|A1]; [destruct (Rlt_dec 0 (area2 k w v2)) as [A2|A2]; auto|]; exfalso.
      + set (f0 := area2 k x v2) in *. set (f1 := area2 k w v2) in *. set (t := f0 / (f0 - f1)).
        assert (Ht : 0 < t <= 1). { unfold t. split; [apply Rdiv_lt_0_compat; lra|]. apply (Rmult_le_reg_r (f0 - f1)); [lra|]. unfold Rdiv. rewrite Rmult_assoc, Rinv_l; lra. }
        assert (E : along x w t = v2). { apply T2; auto. { rewrite L1'. nra. } { rewrite L2'. fold f0 f1. unfold t. field. lra. } }
        assert (Sv : on_seg x w v2) by (exists t; split; [lra|auto]). destruct (vertex_end V A Enc x w v2 Hxw H2 Sv) as [E1|E1]; [|congruence].
        subst x. unfold f0 in Hx2. rewrite <- br1, br_self in Hx2. lra.
      + destruct (lin_exit (area2 k v1 x) (area2 k v1 w) (- area2 k x v2) (- area2 k w v2)) as (t & Ht & [[E1 E2]|[E1 E2]]); try lra.
        * assert (Q1 : area2 k v1 (along x w t) = 0) by (rewrite L1'; lra). assert (Q2 : 0 <= area2 k (along x w t) v2) by (rewrite L2'; lra).
          destruct Q2 as [Q2|Q2]; [apply (T1 t); auto|]. destruct (line_param k v1 _ Nv1 Q1) as (c & Ec). rewrite Ec in Q2. replace (area2 k (along k v1 c) v2) with (c * area2 k v1 v2) in Q2 by (unv; ring).
          assert (c = 0) by nra. subst c. rewrite along_0 in Ec. apply (k_off V A k Enc GP). exists x, w. split; auto. exists t. split; [lra|auto].
        * assert (E : along x w t = v2). { apply T2; auto. { rewrite L1'. lra. } { rewrite L2'. lra. } }
          assert (Sv : on_seg x w v2) by (exists t; split; [lra|auto]). destruct (vertex_end V A Enc x w v2 Hxw H2 Sv) as [F1|F1]; [|congruence].
          subst x. rewrite <- br1, br_self in Hx2. lra.
  Qed.
  Lemma opening_lt v1 v2 : In v1 V -> In v2 V -> lit v1 -> lit v2 -> all_side (-1) v1 -> bare A k v1 -> all_side (-1) v2 -> bare A k v2 -> ~ 0 < area2 k v1 v2.
  Proof.
    intros H1 H2 L1 L2 S1 B1 S2 B2 P12. pose proof H2 as H2'. apply in_split in H2' as (P & Q & EV).
    assert (Rb : rot V (v2 :: Q ++ P)) by (exists P, (v2 :: Q); auto).
    assert (G : forall T X p, v2 :: Q ++ P = X ++ p :: T -> (p = v2 \/ (0 < area2 k v1 p /\ 0 < area2 k p v2)) -> forall w, In w T -> w = v2 \/ (0 < area2 k v1 w /\ 0 < area2 k w v2)).
    { induction T as [|q T IH]; intros X p E Op w Hw; [destruct Hw|].
      assert (Hpq : Ed p q) by (apply (rot_edges V _ _ Rb); rewrite E; apply cyc_mid).
      assert (Oq : q = v2 \/ (0 < area2 k v1 q /\ 0 < area2 k q v2)) by (apply (opening_step v1 v2 p q); auto).
      destruct Hw as [<-|Hw]; auto. apply (IH (X ++ [p]) q); auto. rewrite <- app_assoc. auto. }
    assert (Z : area2 k v1 v1 = 0) by (unv; ring). assert (Hv1 : In v1 (v2 :: Q ++ P)) by (rewrite <- (rot_in V); eauto).
    destruct Hv1 as [E|Hv1]; [subst; lra|]. destruct (G (Q ++ P) [] v2 eq_refl (or_introl eq_refl) v1 Hv1) as [E|[E _]]; [subst|]; lra.
  Qed.
  Lemma opening_unique v1 v2 : In v1 V -> In v2 V -> lit v1 -> lit v2 -> all_side (-1) v1 -> bare A k v1 -> all_side (-1) v2 -> bare A k v2 -> v1 = v2.
  Proof.
    intros. apply (gp_br V k GP 1 s1); auto. rewrite br1. destruct (Rtotal_order (area2 k v1 v2) 0) as [L|[L|L]]; auto; exfalso.
    - apply (opening_lt v2 v1); auto. rewrite area2_swap. lra.
    - apply (opening_lt v1 v2); auto.
  Qed.
  (** there is a visible piece of an edge *)
  Lemma some_span : exists v z a b x x', spans V A k v z a b x x'.
  Proof.
    assert (exists v0, In v0 V) as [v0 Hv0]. { destruct (enc_ring V A Enc) as (ND3 & L3 & RO3). clear - L3. destruct V as [|v0 T]; [cbn in L3; lia|]. exists v0. left. auto. }
    assert (N0 : v0 <> k) by (apply (vertex_not_k V A k Enc GP); auto).
    destruct (outermost V A k Enc GP v0 (vertex_A V A Enc v0 Hv0) N0) as (g & Hg & Lg). set (y := along k v0 g) in *.
    assert (Ny : y <> k). { intros E. apply N0. assert (g = 0); [|lra]. apply (along_inj k v0); [congruence|]. rewrite along_0. auto. }
    destruct (lit_cases V A k Enc GP y Lg Ny) as [Iy|(a & b & Hab & Iy & _)].
    - destruct (cyc_from V y Iy) as [w Hw]. assert (U : Un y w) by (left; auto). destruct (Un_V V A k Enc GP 1 s1 y w U) as (_ & _ & _ & B). rewrite br1 in B.
      destruct (Rlt_dec 0 (area2 k y w)) as [L|L].
      + destruct (leave_next y Iy Lg) as (z & a & b & x & x' & Sp). { left. exists w. auto. } exists y, z, a, b, x, x'. auto.
      + destruct (leave_prev y Iy Lg) as (z & a & b & x & x' & Sp). { left. exists w. split; auto. lra. } exists z, y, a, b, x, x'. auto.
    - destruct (lit_pair a b y Hab Iy Lg) as (v & z & x & x' & Sp & _). exists v, z, a, b, x, x'. auto.
  Qed.
End Pair.
