(** Following the lit part of the boundary from one visible vertex to the next. *)
From Coq Require Import Reals Lra Lia Psatz List Arith.
From Verif Require Import Num Spec S_PolHull L_Geom L_PolHull3 L_Ring L_Ring2 L_Lit.
Import ListNotations.
Open Scope R_scope.

Lemma line_param a b x : a <> b -> area2 a b x = 0 -> exists t, x = along a b t.
Proof.
  intros Hab E. set (u := fst b - fst a). set (v := snd b - snd a).
  assert (Q : 0 < u * u + v * v).
  { destruct (Req_dec u 0) as [Eu|]; [destruct (Req_dec v 0) as [Ev|]|]; try nra. exfalso. apply Hab. destruct a, b. unfold u, v in *. cbn in *. apply pair_eq; lra. }
  set (w := u * (fst x - fst a) + v * (snd x - snd a)). exists (w / (u * u + v * v)).
  assert (Z : u * (snd x - snd a) = v * (fst x - fst a)) by (unfold u, v; unv; lra).
  destruct x as [x1 x2]. cbn [fst snd] in *.
  assert (F : forall y z h, (y - z) * (u * u + v * v) = w * h -> y = z + w / (u * u + v * v) * h).
  { intros y z h Hy. apply (Rmult_eq_reg_r (u * u + v * v)); [|lra]. rewrite Rmult_plus_distr_r. replace (w / (u * u + v * v) * h * (u * u + v * v)) with (w * h) by (field; lra). lra. }
  unfold along, vadd, smul, vsub. cbn [fst snd]. apply pair_eq; apply F; fold u; fold v; unfold w.
  - replace ((u * (x1 - fst a) + v * (x2 - snd a)) * u) with (u * u * (x1 - fst a) + v * (u * (x2 - snd a))) by ring. rewrite Z. ring.
  - replace ((u * (x1 - fst a) + v * (x2 - snd a)) * v) with (u * (v * (x1 - fst a)) + v * v * (x2 - snd a)) by ring. rewrite <- Z. ring.
Qed.
Lemma lin_exit f0 f1 g0 g1 : 0 < f0 -> g0 < 0 -> f1 <= 0 \/ 0 <= g1 ->
  exists t, 0 < t <= 1 /\ ((f0 + t * (f1 - f0) = 0 /\ g0 + t * (g1 - g0) <= 0) \/ (g0 + t * (g1 - g0) = 0 /\ 0 < f0 + t * (f1 - f0))).
Proof.
  intros F0 G0 H.
  assert (TG : 0 <= g1 -> exists t, 0 < t <= 1 /\ g0 + t * (g1 - g0) = 0).
  { intros G1. exists (- g0 / (g1 - g0)). split; [split|]; [apply Rdiv_lt_0_compat; lra| |field; lra]. apply (Rmult_le_reg_r (g1 - g0)); [lra|]. unfold Rdiv. rewrite Rmult_assoc, Rinv_l; lra. }
  destruct (Rle_dec f1 0) as [F1|F1].
  - assert (exists t, 0 < t <= 1 /\ f0 + t * (f1 - f0) = 0) as (t & Ht & Et).
    { exists (f0 / (f0 - f1)). split; [split|]; [apply Rdiv_lt_0_compat; lra| |field; lra]. apply (Rmult_le_reg_r (f0 - f1)); [lra|]. unfold Rdiv. rewrite Rmult_assoc, Rinv_l; lra. }
    destruct (Rle_dec (g0 + t * (g1 - g0)) 0) as [L|L]. { exists t. split; auto. }
    assert (G1 : 0 <= g1) by nra. destruct (TG G1) as (r & Hr & Er). exists r. split; auto. right. split; auto. assert (r < t) by nra. nra.
  - destruct H as [H|H]; [lra|]. destruct (TG H) as (r & Hr & Er). exists r. split; auto. right. split; auto. destruct (Req_dec r 1) as [->|]; [lra|]. nra.
Qed.
Lemma has_max_on {B} (f : B -> R) (P : B -> Prop) (l : list B) (Pd : forall x, In x l -> P x \/ ~ P x) :
  (exists z, In z l /\ P z) -> exists z, In z l /\ P z /\ forall w, In w l -> P w -> f w <= f z.
Proof.
  induction l as [|a l IH]; intros (z & Hz & Pz); [destruct Hz|]. specialize (IH (fun x Hx => Pd x (or_intror Hx))).
  assert (D : (exists w, In w l /\ P w) \/ ~ (exists w, In w l /\ P w)).
  { assert (Pd' : forall x, In x l -> P x \/ ~ P x) by (intros; apply Pd; right; auto). clear - Pd'. induction l as [|b l IHl]. { right. intros (w & [] & _). }
    destruct IHl as [(w & Hw & Pw)|N]. { intros; apply Pd'; right; auto. } { left. exists w. split; [right; auto|auto]. }
    destruct (Pd' b (or_introl eq_refl)); [left; exists b; split; [left; auto|auto]|]. right. intros (w & [->|Hw] & Pw); eauto. }
  destruct D as [D|D].
  - destruct (IH D) as (m & Hm & Pm & M). destruct (Pd a (or_introl eq_refl)) as [Pa|Na].
    + destruct (Rle_dec (f m) (f a)) as [L|L].
      * exists a. split; [left; auto|]. split; auto. intros w [<-|Hw] Pw; [lra|]. apply (Rle_trans _ (f m)); auto.
      * exists m. split; [right; auto|]. split; auto. intros w [<-|Hw] Pw; [lra|auto].
    + exists m. split; [right; auto|]. split; auto. intros w [<-|Hw] Pw; [contradiction|auto].
  - destruct Hz as [->|Hz]; [|exfalso; eauto]. exists z. split; [left; auto|]. split; auto. intros w [<-|Hw] Pw; [lra|exfalso; eauto].
Qed.

Section Lit2.
  Variables (V : list Pt) (A : region) (k : Pt).
  Hypothesis Enc : encloses V A.
  Hypothesis GP : forall v w, In v V -> In w V -> v <> w -> area2 k v w <> 0.
  Notation Ed := (Ed V).
  Notation lit := (lit A k).
  Let RO : ringed Ed A := proj1 (proj2 (proj2 (enc_ring V A Enc))).
  Let ND : NoDup V := proj1 (enc_ring V A Enc).
  Variable s : R.
  Hypothesis Hs : s = 1 \/ s = -1.
  Definition br (p q : Pt) : R := s * area2 k p q.
  Definition Un (p q : Pt) : Prop := Ed p q \/ Ed q p.

  Lemma br_anti p q : br p q = - br q p.
  Proof. unfold br. rewrite area2_swap. ring. Qed.
  (** Pluecker relation *)
  Lemma br_pl y a b c : br y b * br a c = br y a * br b c + br y c * br a b.
  Proof. unfold br. unv. ring. Qed.
  Lemma br_lin p x y t : br p (along x y t) = (1 - t) * br p x + t * br p y.
  Proof. unfold br. unv. ring. Qed.
  Lemma br_ray p x t : br p (along k x t) = t * br p x.
  Proof. unfold br. unv. ring. Qed.
  Lemma br_self p : br p p = 0.
  Proof. unfold br. unv. ring. Qed.
  Lemma Un_sym p q : Un p q -> Un q p.
  Proof. unfold Un. tauto. Qed.
  Lemma in_seg_sym p q x : in_seg p q x -> in_seg q p x.
  Proof. intros (t & Ht & ->). exists (1 - t). split; [lra|]. unv. apply pair_eq; ring. Qed.
  Lemma Un_only a b p q x : Un a b -> Un p q -> in_seg a b x -> on_seg p q x -> (p = a /\ q = b) \/ (p = b /\ q = a).
  Proof.
    intros [H1|H1] [H2|H2] I1 S1.
    - left. destruct (only_edge V A Enc a b p q x); auto.
    - right. destruct (only_edge V A Enc a b q p x); auto using on_seg_sym.
    - right. destruct (only_edge V A Enc b a p q x); auto using in_seg_sym.
    - left. destruct (only_edge V A Enc b a q p x); auto using in_seg_sym, on_seg_sym.
  Qed.
  Lemma Un_A p q x : Un p q -> on_seg p q x -> A x.
  Proof. intros [H|H] S1; apply (r_on _ _ RO); [exists p, q|exists q, p]; auto using on_seg_sym. Qed.
  Lemma Un_k p q x : Un p q -> on_seg p q x -> x <> k.
  Proof. intros H S1 ->. apply (k_off V A k Enc GP). destruct H as [H|H]; [exists p, q|exists q, p]; auto using on_seg_sym. Qed.
  Lemma Un_V p q : Un p q -> In p V /\ In q V /\ p <> q /\ br p q <> 0.
  Proof.
    intros H. assert (X : In p V /\ In q V /\ p <> q). { destruct H as [H|H]; destruct (cyc_in _ _ _ H); pose proof (r_edge _ _ RO _ _ H); auto. }
    destruct X as (X1 & X2 & X3). repeat split; auto. pose proof (GP p q X1 X2 X3). unfold br. destruct Hs as [-> | ->]; lra.
  Qed.
  Lemma Un_in_V p q x : Un p q -> in_seg p q x -> ~ In x V.
  Proof. intros [H|H] I1; eapply (in_edge_not_vertex V A Enc); eauto using in_seg_sym. Qed.
  Lemma gp_br v w : In v V -> In w V -> br v w = 0 -> v = w.
  Proof.
    intros Hv Hw E. assert (E' : area2 k v w = 0) by (unfold br in E; destruct Hs as [-> | ->]; lra).
    destruct (Req_dec (fst v) (fst w)) as [E1|N]; [destruct (Req_dec (snd v) (snd w)) as [E2|N]|]; [destruct v, w; cbn in *; congruence| |];
      exfalso; apply (GP v w Hv Hw); auto; intros ->; auto.
  Qed.
  Lemma collinear_on a b y c x : on_seg a b y -> on_seg a b c -> on_seg a b x -> area2 y c x = 0.
  Proof. intros (t1 & _ & ->) (t2 & _ & ->) (t3 & _ & ->). unv. ring. Qed.
  Lemma on_sub a b y c t : on_seg a b y -> on_seg a b c -> y <> c -> 0 < t < 1 -> in_seg a b (along y c t).
  Proof.
    intros (u & Hu & ->) (v & Hv & ->) N Ht. exists (u + t * (v - u)). split.
    - assert (u <> v) by (intros ->; auto). destruct (Rle_dec u v); nra.
    - unv. apply pair_eq; ring.
  Qed.

  Lemma barrier a b y c p q x : Un a b -> on_seg a b y -> on_seg a b c -> lit y -> 0 < br y c ->
    Un p q -> in_seg p q x -> 0 < br y x -> 0 <= br x c -> s * area2 y c x < 0 -> 0 < br p x ->
    p = y \/ (0 < br y p /\ s * area2 y c p < 0 /\ 0 < br p c).
  Proof.
    intros Hab Hy Hc [LA LN] Hyc Hpq Hx Hyx Hxc Hg Hpx.
    assert (Nyk : y <> k) by exact (Un_k a b y Hab Hy).
    assert (Nyc : y <> c) by (intros ->; rewrite br_self in Hyc; lra).
    assert (Opp : on_seg p q p) by apply on_seg_l.
    assert (Sub : forall t, 0 <= t <= 1 -> on_seg p q (along x p t)).
    { intros t Ht. destruct Hx as (u & Hu & ->). exists (u + t * (0 - u)). split; [nra|]. unv. apply pair_eq; ring. }
    assert (SubI : forall t, 0 <= t < 1 -> in_seg p q (along x p t)).
    { intros t Ht. destruct Hx as (u & Hu & ->). exists (u + t * (0 - u)). split; [nra|]. unv. apply pair_eq; ring. }
    assert (Bad : forall z, in_seg p q z -> on_seg a b z -> False).
    { intros z Z1 Z2. assert (area2 y c x = 0); [|rewrite H in Hg; lra].
      apply (collinear_on a b); auto. destruct (Un_only p q a b z Hpq Hab Z1 Z2) as [[-> ->]|[-> ->]]; [apply in_seg_on; auto|apply on_seg_sym, in_seg_on; auto]. }
    assert (Bad2 : forall z, in_seg a b z -> on_seg p q z -> False).
    { intros z Z1 Z2. assert (area2 y c x = 0); [|rewrite H in Hg; lra].
      apply (collinear_on a b); auto. destruct (Un_only a b p q z Hab Hpq Z1 Z2) as [[-> ->]|[-> ->]]; [apply in_seg_on; auto|apply on_seg_sym, in_seg_on; auto]. }
    assert (D : (0 < br y p /\ s * area2 y c p < 0) \/ (br y p <= 0 \/ 0 <= s * area2 y c p)) by lra.
    destruct D as [[D1 D2]|D].
    - right. split; auto. split; auto. pose proof (br_pl y p x c) as P. assert (0 < br y x * br p c); [|nra]. rewrite P.
      assert (0 < br y c * br p x) by (apply Rmult_lt_0_compat; auto). assert (0 <= br y p * br x c) by (apply Rmult_le_pos; lra). lra.
    - left. destruct (lin_exit (br y x) (br y p) (s * area2 y c x) (s * area2 y c p) Hyx Hg D) as (t & Ht & X).
      assert (Ef : br y (along x p t) = br y x + t * (br y p - br y x)) by (rewrite br_lin; ring).
      assert (Eg : s * area2 y c (along x p t) = s * area2 y c x + t * (s * area2 y c p - s * area2 y c x)) by (unv; ring).
      rewrite <- Ef, <- Eg in X. destruct X as [[X1 X2]|[X1 X2]].
      + assert (E0 : area2 k y (along x p t) = 0) by (unfold br in X1; destruct Hs as [-> | ->]; lra).
        assert (Nky : k <> y) by auto.
        destruct (line_param k y _ Nky E0) as (g & Eg').
        assert (G : 1 <= g). { rewrite Eg' in X2. replace (s * area2 y c (along k y g)) with ((1 - g) * br y c) in X2 by (unfold br; unv; ring). nra. }
        assert (G1 : g = 1).
        { destruct G as [G|G]; auto. exfalso. apply (LN (g - 1)); [lra|]. replace (beyond k y (g - 1)) with (along k y g) by (unfold beyond; unv; apply pair_eq; ring).
          rewrite <- Eg'. eapply Un_A; [exact Hpq|]. apply Sub. lra. }
        rewrite G1, along_1 in Eg'. destruct (Req_dec t 1) as [->|N1]. { rewrite along_1 in Eg'. auto. }
        exfalso. apply (Bad y); auto. rewrite <- Eg'. apply SubI. lra.
      + exfalso. assert (E0 : area2 y c (along x p t) = 0) by (destruct Hs as [-> | ->]; lra).
        destruct (line_param y c _ Nyc E0) as (g & Eg').
        assert (G0 : 0 < g). { rewrite Eg', br_lin, br_self in X2. nra. }
        assert (G1 : 0 < br (along x p t) c).
        { pose proof (br_pl y (along x p t) x c) as P. assert (Etx : br (along x p t) x = t * br p x) by (unfold br; unv; ring). rewrite Etx in P.
          assert (0 < br y c * (t * br p x)) by (apply Rmult_lt_0_compat; auto; apply Rmult_lt_0_compat; lra). assert (0 <= br y (along x p t) * br x c) by (apply Rmult_le_pos; lra).
          assert (0 < br y x * br (along x p t) c) by lra. nra. }
        assert (G2 : g < 1). { rewrite Eg' in G1. replace (br (along y c g) c) with ((1 - g) * br y c) in G1 by (unfold br; unv; ring). nra. }
        apply (Bad2 (along x p t)). { rewrite Eg'. apply on_sub; auto. } apply Sub. lra.
  Qed.

  Lemma lit_side x : lit x -> x <> k -> In x V \/ exists p q, Un p q /\ in_seg p q x /\ 0 < br p x.
  Proof.
    intros Lz Nx. destruct (lit_cases V A k Enc GP x Lz Nx) as [|(p & q & Hpq & Ix & Hd)]; auto. right.
    destruct Ix as (t & Ht & Ex). destruct Hs as [E|E].
    - exists p, q. split; [left; auto|]. split; [exists t; auto|]. rewrite Ex. unfold br. rewrite E. replace (1 * area2 k p (along p q t)) with (t * area2 k p q) by (unv; ring). nra.
    - exists q, p. split; [right; auto|]. split; [apply in_seg_sym; exists t; auto|]. rewrite Ex. unfold br. rewrite E. replace (-1 * area2 k q (along p q t)) with ((1 - t) * area2 k p q) by (unv; ring). nra.
  Qed.

  (** when the light ends before [c], a visible vertex is in between *)
  Lemma shade a b y c : Un a b -> in_seg a b y -> on_seg a b c -> lit y -> 0 < br y c ->
    lit c \/ exists v, In v V /\ lit v /\ 0 < br y v /\ 0 <= br v c.
  Proof.
    intros Hab Hy Hc L Hyc. assert (Ac : A c) by (eapply Un_A; eauto). assert (Nck : c <> k) by exact (Un_k a b c Hab Hc).
    assert (Nyc : y <> c) by (intros ->; rewrite br_self in Hyc; lra). pose proof (in_seg_on _ _ _ Hy) as Hy'.
    destruct (lit_dec V A k Enc GP c Ac Nck) as [|(g & Hg & Lx)]; auto. right.
    assert (step : forall z gz, A z -> z <> k -> 1 < gz -> lit (along k z gz) -> 0 < br y z -> 0 <= br z c -> s * area2 y c z <= 0 ->
              (In (along k z gz) V) \/ exists p, In p V /\ 0 < br y p /\ s * area2 y c p < 0 /\ 0 < br p c /\ 0 < br p z).
    { intros z gz Az Nz Hgz Lz B1 B2 B3. set (x := along k z gz) in *.
      assert (Nx : x <> k). { intros E. assert (br y x = 0) by (rewrite E; unfold br; unv; ring). unfold x in H. rewrite br_ray in H. nra. }
      assert (Cx : area2 y c x * s = (1 - gz) * br y c + gz * (s * area2 y c z)) by (unfold x, br; unv; ring).
      destruct (lit_side x Lz Nx) as [|W]; auto. right.
      destruct W as (p' & q' & U' & I' & B').
      destruct (barrier a b y c p' q' x Hab Hy' Hc L Hyc U' I') as [E|(C1 & C2 & C3)]; auto.
      - unfold x. rewrite br_ray. nra.
      - rewrite br_anti. unfold x. rewrite br_ray. rewrite br_anti in B2. nra.
      - assert (gz * (s * area2 y c z) <= 0) by nra. assert ((1 - gz) * br y c < 0) by nra. lra.
      - exfalso. apply (Un_in_V a b y Hab Hy). rewrite <- E. apply (Un_V _ _ U').
      - exists p'. split; [apply (Un_V _ _ U')|]. repeat split; auto. unfold x in B'. rewrite br_ray in B'. nra. }
    destruct (step c g Ac Nck Hg Lx Hyc) as [Iv|Z0]. { rewrite br_self; lra. } { replace (area2 y c c) with 0 by (unv; ring). lra. }
    { exists (along k c g). repeat split; auto; try apply Lx; [rewrite br_ray; nra|rewrite br_anti, br_ray, br_self; lra]. }
    destruct (has_max_on (fun z => br z c / br y z) (fun z => 0 < br y z /\ 0 < br z c /\ s * area2 y c z < 0) V) as (z & Hz & (Z1 & Z2 & Z3) & M).
    { intros z _. lra. } { destruct Z0 as (p & Hp & P1 & P2 & P3 & _). exists p. auto. }
    assert (Az : A z) by (apply (vertex_A V A Enc); auto). assert (Nz : z <> k) by (apply (vertex_not_k V A k Enc GP); auto).
    destruct (lit_dec V A k Enc GP z Az Nz) as [Lz|(gz & Hgz & Lz)]. { exists z. repeat split; auto; try apply Lz. lra. }
    destruct (step z gz Az Nz Hgz Lz Z1) as [Iv|(p & Hp & P1 & P2 & P3 & P4)]; try lra.
    { exists (along k z gz). repeat split; auto; try apply Lz; [rewrite br_ray; nra|rewrite br_anti, br_ray; rewrite br_anti in Z2; nra]. }
    exfalso. specialize (M p Hp (conj P1 (conj P3 P2))). cbn in M.
    assert (M' : br p c * br y z <= br z c * br y p).
    { apply (Rmult_le_compat_r (br y p * br y z)) in M; [|apply Rmult_le_pos; lra]. replace (br p c / br y p * (br y p * br y z)) with (br p c * br y z) in M by (field; lra).
      replace (br z c / br y z * (br y p * br y z)) with (br z c * br y p) in M by (field; lra). auto. }
    pose proof (br_pl y p z c) as Pl. assert (0 < br y c * br p z) by (apply Rmult_lt_0_compat; auto). lra.
  Qed.

  Lemma lit_or v : In v V -> lit v \/ ~ lit v.
  Proof.
    intros Hv. destruct (lit_dec V A k Enc GP v) as [|(g & Hg & Lg)]; auto. { apply (vertex_A V A Enc); auto. } { apply (vertex_not_k V A k Enc GP); auto. }
    right. intros [_ N]. apply (N (g - 1)); [lra|]. replace (beyond k v (g - 1)) with (along k v g) by (unfold beyond; unv; apply pair_eq; ring). apply Lg.
  Qed.
  (** the next visible vertex *)
  Lemma next_lit a b y : Un a b -> in_seg a b y -> lit y -> 0 < br a b ->
    exists z, In z V /\ lit z /\ 0 < br y z /\ 0 <= br z b /\
      (forall v, In v V -> lit v -> 0 < br y v -> 0 <= br v b -> 0 <= br z v) /\
      (forall c, on_seg a b c -> 0 <= br y c -> 0 < br c z -> lit c).
  Proof.
    intros Hab Hy L Bab.
    assert (Hyb : 0 < br y b). { destruct Hy as (t & Ht & ->). replace (br (along a b t) b) with ((1 - t) * br a b) by (unfold br; unv; ring). nra. }
    assert (Hcb : forall c, on_seg a b c -> 0 <= br c b). { intros c (t & Ht & ->). replace (br (along a b t) b) with ((1 - t) * br a b) by (unfold br; unv; ring). nra. }
    destruct (has_max_on (fun v => br v b / br y v) (fun v => lit v /\ 0 < br y v /\ 0 <= br v b) V) as (z & Hz & (Lz & Z1 & Z2) & M).
    { intros v Hv. destruct (lit_or v Hv); [|right; tauto]. destruct (Rlt_dec 0 (br y v)); [|right; tauto]. destruct (Rle_dec 0 (br v b)); [left|right]; tauto. }
    { destruct (shade a b y b Hab Hy (on_seg_r a b) L Hyb) as [Lb|(v & Hv & Lv & V1 & V2)].
      - exists b. split; [apply (Un_V a b Hab)|]. rewrite br_self. repeat split; auto; try apply Lb. lra.
      - exists v. auto. }
    assert (M' : forall v, In v V -> lit v -> 0 < br y v -> 0 <= br v b -> 0 <= br z v).
    { intros v Hv Lv V1 V2. specialize (M v Hv (conj Lv (conj V1 V2))). cbn in M.
      assert (M' : br v b * br y z <= br z b * br y v).
      { apply (Rmult_le_compat_r (br y v * br y z)) in M; [|apply Rmult_le_pos; lra]. replace (br v b / br y v * (br y v * br y z)) with (br v b * br y z) in M by (field; lra).
        replace (br z b / br y z * (br y v * br y z)) with (br z b * br y v) in M by (field; lra). auto. }
      pose proof (br_pl y z v b) as Pl. assert (0 <= br y b * br z v) by lra. nra. }
    exists z. split; [auto|]. split; [auto|]. split; [auto|]. split; [auto|]. split; [auto|].
    intros c Hc Hyc Hcz. destruct (Req_dec (br y c) 0) as [E|N].
    - replace c with y; auto. destruct Hy as (t & Ht & ->), Hc as (u & Hu & ->). replace (br (along a b t) (along a b u)) with ((u - t) * br a b) in E by (unfold br; unv; ring).
      replace u with t by nra. auto.
    - destruct (shade a b y c Hab Hy Hc L ltac:(lra)) as [|(v & Hv & Lv & V1 & V2)]; auto. exfalso.
      assert (V3 : 0 <= br v b).
      { pose proof (br_pl y v c b) as Pl. pose proof (Hcb c Hc). assert (0 <= br y v * br c b) by (apply Rmult_le_pos; lra). assert (0 <= br y b * br v c) by (apply Rmult_le_pos; lra).
        assert (0 <= br y c * br v b) by lra. nra. }
      pose proof (M' v Hv Lv V1 V3) as Q. pose proof (br_pl y v c z) as Pl.
      assert (0 < br y v * br c z) by (apply Rmult_lt_0_compat; auto). assert (0 <= br y z * br v c) by (apply Rmult_le_pos; lra).
      assert (0 < br y c * br v z) by lra. rewrite (br_anti v z) in H1. nra.
  Qed.

  (** a point close to a vertex on one of its edges *)
  Lemma close_sector v n : 0 < br v n -> exists r, 0 < r <= 1 /\ forall t, 0 < t < r -> forall w, In w V -> 0 < br v w -> br w (along v n t) < 0.
  Proof.
    intros Hn. induction V as [|w l [r [Hr IH]]] in |- *. { exists 1. split; [lra|]. intros t Ht w []. }
    destruct (Rlt_dec 0 (br v w)) as [P|P].
    - set (m := br w n). set (q := br v w). assert (exists r1, 0 < r1 /\ forall t, 0 < t < r1 -> - (1 - t) * q + t * m < 0) as (r1 & Hr1 & H1).
      { exists (q / (Rabs m + q + 1)). pose proof (Rabs_pos m). fold q in P. split; [apply Rdiv_lt_0_compat; lra|]. intros t [T1 T2].
        assert (t * (Rabs m + q + 1) < q). { apply (Rmult_lt_compat_r (Rabs m + q + 1)) in T2; [|lra]. unfold Rdiv in T2. rewrite Rmult_assoc, Rinv_l in T2; lra. }
        pose proof (Rle_abs m). nra. }
      exists (Rmin r r1). pose proof (Rmin_l r r1). pose proof (Rmin_r r r1). split; [split; [apply Rmin_glb_lt; lra|lra]|].
      intros t Ht w' [<-|Hw'] Pw; [|apply IH; auto; lra]. rewrite br_lin, (br_anti w v). specialize (H1 t ltac:(lra)). unfold m, q in H1. lra.
    - exists r. split; auto. intros t Ht w' [<-|Hw'] Pw; [lra|]. apply IH; auto.
  Qed.

  (** the part of the boundary that is visible right beside a visible vertex *)
  Lemma near_lit v n : Un v n -> lit v -> 0 < br v n ->
    exists n' x, Un v n' /\ 0 < br v n' /\ in_seg v n' x /\ (forall t, 0 < t <= 1 -> lit (along v x t)) /\
      (forall w, In w V -> 0 < br v w -> br w x < 0).
  Proof.
    intros Hn Lv Bn. destruct (close_sector v n Bn) as (r & Hr & HB).
    set (x0 := along v n (r / 2)). assert (I0 : in_seg v n x0) by (exists (r / 2); split; [lra|auto]).
    pose proof (HB (r / 2) ltac:(lra)) as S0. fold x0 in S0.
    assert (Hvv : In v V) by apply (Un_V v n Hn).
    assert (fact : forall m x, Un v m -> in_seg v m x -> 0 < br v x -> (forall w, In w V -> 0 < br v w -> br w x < 0) ->
              lit x \/ exists q g, 1 < g /\ Un v q /\ in_seg v q (along k x g) /\ lit (along k x g)).
    { intros m x Hm Ix Bx Sx. assert (Ax : A x) by (eapply Un_A; [exact Hm|apply in_seg_on; auto]). assert (Nx : x <> k) by exact (Un_k v m x Hm (in_seg_on _ _ _ Ix)).
      destruct (lit_dec V A k Enc GP x Ax Nx) as [|(g & Hg & Lg)]; auto. right.
      assert (Bg : forall w, br w (along k x g) = g * br w x) by (intros; apply br_ray).
      assert (Ng : along k x g <> k). { intros E. assert (E' : br v (along k x g) = 0) by (rewrite E; unfold br; unv; ring). rewrite Bg in E'. nra. }
      destruct (lit_side _ Lg Ng) as [Iv|(p & q & Hpq & Ip & Bp)].
      { exfalso. assert (P : 0 < br v (along k x g)) by (rewrite Bg; nra). pose proof (Sx _ Iv P) as Q. rewrite br_anti, br_ray, br_self in Q. lra. }
      destruct (barrier v m v x p q (along k x g) Hm (on_seg_l v m) (in_seg_on _ _ _ Ix) Lv Bx Hpq Ip) as [->|(P1 & P2 & P3)]; auto.
      - rewrite Bg. nra.
      - rewrite br_anti, br_ray, br_self. lra.
      - replace (s * area2 v x (along k x g)) with ((1 - g) * br v x) by (unfold br; unv; ring). nra.
      - exists q, g. auto.
      - exfalso. assert (In p V) by apply (Un_V p q Hpq). pose proof (Sx p H P1). lra. }
    assert (main : exists n' x, Un v n' /\ 0 < br v n' /\ in_seg v n' x /\ 0 < br v x /\ lit x /\ (forall w, In w V -> 0 < br v w -> br w x < 0)).
    { assert (B0 : 0 < br v x0) by (unfold x0; rewrite br_lin, br_self; nra).
      destruct (fact n x0 Hn I0 B0 S0) as [L0|(q & g & Hg & Hq & Iq & Lg)].
      - exists n, x0. auto 10.
      - assert (Bx : 0 < br v (along k x0 g)) by (rewrite br_ray; nra). exists q, (along k x0 g). repeat split; auto; try apply Lg.
        + destruct Iq as (t & Ht & E). rewrite E, br_lin, br_self in Bx. nra.
        + intros w Hw Pw. rewrite br_ray. specialize (S0 w Hw Pw). nra. }
    destruct main as (n' & x & Hn' & Bn' & Ix & Bx & Lx & Sx). exists n', x. repeat (split; [assumption|]). split; [|assumption].
    intros t Ht. destruct (Req_dec t 1) as [->|Nt]; [rewrite along_1; auto|].
    assert (Ic : in_seg v n' (along v x t)). { destruct Ix as (u & Hu & ->). exists (t * u). split; [nra|]. unv. apply pair_eq; ring. }
    assert (Bc : 0 < br v (along v x t)) by (rewrite br_lin, br_self; nra).
    assert (Sc : forall w, In w V -> 0 < br v w -> br w (along v x t) < 0).
    { intros w Hw Pw. rewrite br_lin, (br_anti w v). specialize (Sx w Hw Pw). nra. }
    destruct (fact n' (along v x t) Hn' Ic Bc Sc) as [|(q & g & Hg & Hq & Iq & Lg)]; auto. exfalso.
    set (c' := along k (along v x t) g) in *.
    assert (Bc' : br v c' = g * (t * br v x)) by (unfold c'; rewrite br_ray, br_lin, br_self; ring).
    assert (Pc' : 0 < br v c') by (rewrite Bc'; apply Rmult_lt_0_compat; [lra|apply Rmult_lt_0_compat; lra]).
    assert (Bq : 0 < br v q). { destruct Iq as (u & Hu & E). rewrite E, br_lin, br_self in Pc'. nra. }
    assert (Qx : br q x < 0) by (apply Sx; auto; apply (Un_V v q Hq)).
    destruct Iq as (u & Hu & E).
    (* the point of the edge v q in the direction of x *)
    set (h := br v x / (br v x - br q x)).
    assert (Hh : 0 < h < 1). { unfold h. split; [apply Rdiv_lt_0_compat; lra|]. apply (Rmult_lt_reg_r (br v x - br q x)); [lra|]. unfold Rdiv. rewrite Rmult_assoc, Rinv_l; lra. }
    assert (Ew : br (along v q h) x = 0). { replace (br (along v q h) x) with ((1 - h) * br v x + h * br q x) by (unfold br; unv; ring). unfold h. field. lra. }
    assert (E0 : area2 k x (along v q h) = 0). { rewrite area2_swap. unfold br in Ew. destruct Hs as [Es|Es]; rewrite Es in Ew; lra. }
    assert (Nkx : k <> x). { intros Ek. apply (Un_k v n' x Hn' (in_seg_on _ _ _ Ix)). auto. }
    destruct (line_param k x _ Nkx E0) as (g' & Eg').
    assert (C1 : s * area2 v x (along v q h) = (1 - g') * br v x) by (rewrite Eg'; unfold br; unv; ring).
    assert (C2 : u * (s * area2 v x q) = t * 0 + (1 - g) * br v x). { transitivity (s * area2 v x c'); [rewrite E; unv; ring|]. unfold c', br. unv. ring. }
    assert (C3 : s * area2 v x (along v q h) = h * (s * area2 v x q)) by (unv; ring).
    assert (C4 : s * area2 v x q < 0) by nra. assert (C5 : (1 - g') * br v x < 0) by nra.
    apply (proj2 Lx (g' - 1)); [nra|]. replace (beyond k x (g' - 1)) with (along k x g') by (unfold beyond; unv; apply pair_eq; ring).
    rewrite <- Eg'. eapply Un_A; [exact Hq|]. exists h. split; [lra|auto].
  Qed.
End Lit2.
