(** Visible vertices: what is around them, and which one comes next. *)
From Coq Require Import Reals Lra Lia Psatz List Arith.
From Verif Require Import Num Spec S_PolHull L_Geom L_PolHull L_PolHull3 L_Ring L_Ring2 L_Lit L_Lit2 L_Order L_Order2.
Import ListNotations.
Open Scope R_scope.

Lemma off_zero (k y : Pt) : y <> k -> vsub y k <> (0, 0).
Proof. intros N E. apply N. destruct y, k. unv. injection E as E1 E2. apply pair_eq; lra. Qed.

Section Lit3.
  Variables (V : list Pt) (A : region) (k : Pt).
  Hypothesis Enc : encloses V A.
  Hypothesis GP : forall v w, In v V -> In w V -> v <> w -> area2 k v w <> 0.
  Notation Ed := (Ed V).
  Notation Un := (Un V).
  Notation lit := (lit A k).
  Let RO : ringed Ed A := proj1 (proj2 (proj2 (enc_ring V A Enc))).
  Let ND : NoDup V := proj1 (enc_ring V A Enc).
  Notation pt m t := (vadd m (smul t (vsub m k))).

  Lemma seg_const x y : (forall z, on_seg x y z -> ~ on_edges Ed z) -> A x -> A y.
  Proof.
    intros Off Ax. set (P := fun t => 0 <= t <= 1 /\ forall u, 0 <= u <= t -> A (along x y u)).
    assert (P0 : P 0). { split; [lra|]. intros u Hu. replace u with 0 by lra. rewrite along_0. auto. }
    assert (B : bound P) by (exists 1; intros t [Ht _]; lra).
    destruct (completeness P B (ex_intro _ 0 P0)) as (m & Ub & Lub).
    assert (M0 : 0 <= m) by (apply Ub; auto). assert (M1 : m <= 1) by (apply Lub; intros t [Ht _]; lra).
    assert (Hu : forall u, 0 <= u < m -> A (along x y u)).
    { intros u Hu. destruct (r_dec _ _ RO (along x y u)) as [|N]; auto. exfalso. assert (m <= u); [|lra]. apply Lub. intros t [Ht HA].
      apply Rnot_lt_le. intros L. apply N, HA. lra. }
    assert (Eq : forall u, vadd (along x y m) (smul (u - m) (vsub y x)) = along x y u) by (intros; unv; apply pair_eq; ring).
    assert (Am : A (along x y m)).
    { destruct (r_dec _ _ RO (along x y m)) as [|N]; auto. exfalso. destruct (Req_dec m 0) as [E|E].
      - rewrite E, along_0 in N. auto.
      - destruct (nbhd_line _ (vsub y x) _ (r_closed _ _ RO _ N)) as (r & Hr & HN). set (u := Rmax 0 (m - r / 2)).
        assert (0 <= u) by apply Rmax_l. assert (m - r / 2 <= u) by apply Rmax_r. assert (u < m) by (unfold u; apply Rmax_lub_lt; lra).
        apply (HN (u - m)). { rewrite Rabs_minus_sym, Rabs_right; lra. } rewrite Eq. apply Hu. lra. }
    destruct (Req_dec m 1) as [E|E]. { rewrite E, along_1 in Am. auto. }
    exfalso. assert (Om : ~ on_edges Ed (along x y m)) by (apply Off; exists m; split; [lra|auto]).
    destruct (nbhd_line _ (vsub y x) _ (r_open _ _ RO _ Am Om)) as (r & Hr & HN). set (u := Rmin 1 (m + r / 2)).
    assert (u <= 1) by apply Rmin_l. assert (u <= m + r / 2) by apply Rmin_r. assert (m < u) by (unfold u; apply Rmin_glb_lt; lra).
    assert (u <= m); [|lra]. apply Ub. split; [lra|]. intros w Hw. destruct (Rlt_dec w m); [apply Hu; lra|].
    rewrite <- Eq. apply HN. rewrite Rabs_right; lra.
  Qed.

  Lemma ed_next v w w' : Ed v w -> Ed v w' -> w = w'.
  Proof.
    intros H H'. destruct (cyc_in _ _ _ H) as [Hv _]. apply in_split in Hv as (X & Y & E). unfold L_Lit.Ed in *. pose proof ND as Q. rewrite E in *.
    rewrite (cyc_next_unique _ _ _ _ Q H), (cyc_next_unique _ _ _ _ Q H'). auto.
  Qed.
  Lemma ed_prev v w w' : Ed w v -> Ed w' v -> w = w'.
  Proof.
    intros H H'. destruct (cyc_in _ _ _ H) as [_ Hv]. apply in_split in Hv as (X & Y & E). unfold L_Lit.Ed in *. pose proof ND as Q. rewrite E in *.
    rewrite (cyc_prev_unique _ _ _ _ Q H), (cyc_prev_unique _ _ _ _ Q H'). auto.
  Qed.
  Lemma pt_dec (a b : Pt) : a = b \/ a <> b.
  Proof. destruct a as [a1 a2], b as [b1 b2]. destruct (Req_dec a1 b1) as [->|N]; [destruct (Req_dec a2 b2) as [->|N]|]; auto; right; intros E; apply N; congruence. Qed.

  Lemma vertex_end a b v : Ed a b -> In v V -> on_seg a b v -> v = a \/ v = b.
  Proof. intros H Hv S1. apply on_seg_cases in S1. destruct S1 as [->|[->|S1]]; auto. exfalso. apply (in_edge_not_vertex V A Enc a b v); auto. Qed.
  Lemma vertex_nbhd u v w : Ed u v -> Ed v w -> nbhd v (fun y => on_edges Ed y -> on_seg u v y \/ on_seg v w y).
  Proof.
    intros H1 H2. assert (Hv : In v V) by apply (cyc_in _ _ _ H1).
    eapply nbhd_mono; [apply (nbhd_forall v (cyc_edges V) (fun e y => e = (u, v) \/ e = (v, w) \/ ~ on_seg (fst e) (snd e) y))|].
    - intros [a b] He. cbn [fst snd]. destruct (pt_dec a v) as [->|Na].
      { apply nbhd_true. intros y. right. left. rewrite (ed_next v w b); auto. }
      destruct (pt_dec b v) as [->|Nb]. { apply nbhd_true. intros y. left. rewrite (ed_prev v u a); auto. }
      eapply nbhd_mono; [apply (off_seg_nbhd a b v)|auto]. { apply (r_edge _ _ RO). auto. }
      intros S1. destruct (vertex_end a b v He Hv S1); auto.
    - cbv beta. intros y Hy (a & b & He & S1). destruct (Hy (a, b) He) as [E|[E|E]]; [injection E as -> ->; auto|injection E as -> ->; auto|contradiction].
  Qed.

  (** both neighbours on the same side: the polygon is not right below *)
  Lemma below_same s u v w : s = 1 \/ s = -1 -> Ed u v -> Ed v w -> lit v -> 0 < br k s v u -> 0 < br k s v w ->
    exists r, 0 < r < 1 /\ forall t, 0 < t < r -> ~ A (along k v (1 - t)).
  Proof.
    intros Hs H1 H2 L B1 B2. destruct (nbhd_convex _ _ (vertex_nbhd u v w H1 H2)) as (Q & NQ & HQ & CQ).
    destruct (nbhd_line v (vsub v k) Q NQ) as (r & Hr & HR). destruct (nbhd_line v (vsub v u) Q NQ) as (r2 & Hr2 & R2).
    set (q := vadd v (smul (r2 / 2) (vsub v u))). assert (Qq : Q q) by (apply R2; rewrite Rabs_right; lra).
    assert (Bq : br k s v q < 0). { unfold q, br. replace (s * area2 k v (vadd v (smul (r2 / 2) (vsub v u)))) with (- (r2 / 2) * (s * area2 k v u)) by (unv; ring). unfold br in B1. nra. }
    assert (Nvk : v <> k) by (apply (vertex_not_k V A k Enc GP); apply (cyc_in _ _ _ H1)).
    (* segments from the ray of v to q meet no edge *)
    assert (F : forall t, Rabs t < r -> t <> 0 -> forall z, on_seg (pt v t) q z -> ~ on_edges Ed z).
    { intros t Ht Nt z Hz O. assert (Qz : Q z) by (apply (CQ (pt v t) q); auto). destruct Hz as (g & Hg & Ez).
      assert (Bz : br k s v z = g * br k s v q) by (rewrite Ez; unfold br; unv; ring).
      assert (X : 0 <= br k s v z /\ (br k s v z = 0 -> z = v)).
      { destruct (HQ z Qz O) as [(h & Hh & E)|(h & Hh & E)].
        - assert (E' : br k s v z = (1 - h) * br k s v u) by (rewrite E; unfold br; unv; ring). split; [rewrite E'; nra|]. intros E0. rewrite E0 in E'. assert (h = 1) by nra. subst h. rewrite along_1 in E. auto.
        - assert (E' : br k s v z = h * br k s v w) by (rewrite E; unfold br; unv; ring). split; [rewrite E'; nra|]. intros E0. rewrite E0 in E'. assert (h = 0) by nra. subst h. rewrite along_0 in E. auto. }
      assert (G0 : g = 0) by nra. subst g. rewrite along_0 in Ez. destruct X as [_ X]. assert (Ev : z = v) by (apply X; lra).
      apply (off_zero k v Nvk). rewrite Ev in Ez. destruct v as [v1 v2], k as [k1 k2]. unv. injection Ez as E1 E2. apply pair_eq; nra. }
    exists (Rmin (r / 2) (1 / 2)). pose proof (Rmin_l (r / 2) (1 / 2)). pose proof (Rmin_r (r / 2) (1 / 2)). split; [split; [apply Rmin_glb_lt; lra|lra]|].
    intros t Ht AA. replace (along k v (1 - t)) with (pt v (- t)) in AA by (unv; apply pair_eq; ring).
    assert (Aq : A q). { apply (seg_const (pt v (- t)) q); auto. apply F; [rewrite Rabs_Ropp, Rabs_right; lra|lra]. }
    apply (proj2 L t); [lra|]. unfold beyond. apply (seg_const q (pt v t)); auto. intros z Hz. apply (F t); [rewrite Rabs_right; lra|lra|]. apply on_seg_sym. auto.
  Qed.

  (** the ring passes from the right to the left: the polygon is right below *)
  Lemma below_through u v w : Ed u v -> Ed v w -> lit v -> 0 < area2 k u v -> 0 < area2 k v w ->
    exists r, 0 < r < 1 /\ forall t, 0 < t < r -> A (along k v (1 - t)).
  Proof.
    intros H1 H2 L B1 B2. assert (B1' : area2 k v u < 0) by (rewrite area2_swap; lra).
    destruct (near_lit V A k Enc GP 1 (or_introl eq_refl) v w) as (n & x & U & Bn & Ix & Lx & _); auto. { left; auto. } { unfold br. lra. }
    assert (Hn : n = w). { destruct U as [U|U]; [eapply ed_next; eauto|]. exfalso. rewrite (ed_prev v n u U H1) in Bn. unfold br in Bn. lra. }
    subst n. destruct (nbhd_convex _ _ (vertex_nbhd u v w H1 H2)) as (Q & NQ & HQ & CQ).
    destruct (nbhd_seg v Q NQ x) as (r0 & Hr0 & Hr01 & R0). set (c := along v x r0). assert (Qc : Q c) by (apply R0; lra).
    assert (Lc : lit c) by (apply Lx; lra).
    assert (Ic : in_seg v w c). { destruct Ix as (g & Hg & ->). exists (r0 * g). split; [nra|]. unfold c. unv. apply pair_eq; ring. }
    destruct (nbhd_line v (vsub v k) Q NQ) as (r & Hr & HR).
    assert (exists c', inside Ed A c' /\ Q c' /\ 0 < area2 k v c' /\ 0 < area2 v w c') as (c' & [Ac' _] & Qc' & P1 & P2).
    { set (p := pt v (- (r / 2))). assert (Qp : Q p) by (apply HR; rewrite Rabs_Ropp, Rabs_right; lra).
      destruct (nbhd_seg _ _ (r_side _ _ RO v w c H2 Ic) p) as (r3 & Hr3 & Hr31 & R3). exists (along c p (r3 / 2)).
      assert (P2 : 0 < area2 v w (along c p (r3 / 2))).
      { assert (Cc : area2 v w c = 0) by (apply area_on_seg, in_seg_on; auto).
        replace (area2 v w (along c p (r3 / 2))) with ((1 - r3 / 2) * area2 v w c + r3 / 2 * (r / 2 * area2 k v w)) by (unfold p; unv; ring). rewrite Cc.
        assert (0 < r3 / 2 * (r / 2 * area2 k v w)) by (apply Rmult_lt_0_compat; [lra|apply Rmult_lt_0_compat; lra]). lra. }
      assert (P1 : 0 < area2 k v (along c p (r3 / 2))).
      { replace (area2 k v (along c p (r3 / 2))) with ((1 - r3 / 2) * area2 k v c) by (unfold p; unv; ring). apply Rmult_lt_0_compat; [lra|].
        destruct Ic as (g & Hg & ->). replace (area2 k v (along v w g)) with (g * area2 k v w) by (unv; ring). nra. }
      destruct (R3 (r3 / 2) ltac:(lra)) as (S1 & _ & S3). repeat split; auto.
      - apply S1. lra.
      - intros O. apply S3, area_on_seg in O. lra.
      - apply (CQ c p); auto. exists (r3 / 2). split; [lra|auto]. }
    exists (Rmin (r / 2) (1 / 2)). pose proof (Rmin_l (r / 2) (1 / 2)). pose proof (Rmin_r (r / 2) (1 / 2)). split; [split; [apply Rmin_glb_lt; lra|lra]|].
    intros t Ht. replace (along k v (1 - t)) with (pt v (- t)) by (unv; apply pair_eq; ring).
    assert (Qp : Q (pt v (- t))) by (apply HR; rewrite Rabs_Ropp, Rabs_right; lra).
    apply (seg_const c' (pt v (- t))); auto. intros z Hz O. assert (Qz : Q z) by (apply (CQ c' (pt v (- t))); auto).
    destruct Hz as (g & Hg & Ez).
    assert (Pv : area2 v w (pt v (- t)) = t * area2 k v w) by (unv; ring).
    assert (Z1 : area2 v w z = (1 - g) * area2 v w c' + g * (t * area2 k v w)) by (rewrite Ez, <- Pv; unv; ring).
    assert (Z2 : area2 k v z = (1 - g) * area2 k v c') by (rewrite Ez; unv; ring).
    destruct (HQ z Qz O) as [(h & Hh & E)|S1].
    - assert (Z3 : area2 k v z = (1 - h) * area2 k v u) by (rewrite E; unv; ring). assert (0 <= (1 - g) * area2 k v c') by nra. assert ((1 - h) * area2 k v u <= 0) by nra.
      assert (h = 1) by nra. subst h. rewrite along_1 in E. rewrite E in Z1. replace (area2 v w v) with 0 in Z1 by (unv; ring).
      assert (0 < t * area2 k v w) by nra. assert (0 <= (1 - g) * area2 v w c') by nra. assert (g = 1) by nra. subst g. nra.
    - apply area_on_seg in S1. assert (0 < t * area2 k v w) by nra. assert (0 <= (1 - g) * area2 v w c') by nra. destruct (Req_dec g 0) as [->|]; nra.
  Qed.
End Lit3.
