(** Where the visible part of the boundary passes from one edge to another. *)
From Coq Require Import Reals Lra Lia Psatz List Arith Classical_Prop.
From Verif Require Import Num Spec S_PolHull L_Geom L_PolHull L_PolHull3 L_Ring L_Ring2 L_Lit L_Lit2 L_Order L_Order2 L_Lit3 L_Lit4.
Import ListNotations.
Open Scope R_scope.

(** the last point of the polygon before [v] on the ray from [k] *)
Definition foot (A : region) (k v u : Pt) : Prop := exists c, 0 < c < 1 /\ u = along k v c /\ A u /\ forall t, c < t < 1 -> ~ A (along k v t).
(** nothing of the polygon before [v] *)
Definition bare (A : region) (k v : Pt) : Prop := forall t, 0 < t < 1 -> ~ A (along k v t).
(** where the visible boundary meets the ray of the vertex [v] on the side -s *)
Definition port (V : list Pt) (A : region) (k : Pt) (s : R) (v p : Pt) : Prop :=
  (p = v /\ exists n, Un V v n /\ br k s v n < 0) \/ ((forall n, Un V v n -> 0 < br k s v n) /\ foot A k v p).
(** [z] is the first visible vertex after [v] *)
Definition nextv (V : list Pt) (A : region) (k v z : Pt) : Prop :=
  exists X Y, rot V (v :: X ++ z :: Y) /\ forall w, In w X -> ~ lit A k w.

Lemma foot_unique A k v u u' : foot A k v u -> foot A k v u' -> u = u'.
Proof.
  intros (c & Hc & -> & Ac & Fc) (d & Hd & -> & Ad & Fd). destruct (Rtotal_order c d) as [L|[->|L]]; auto; exfalso.
  - apply (Fc d); auto. lra.
  - apply (Fd c); auto. lra.
Qed.
Lemma foot_bare A k v u : foot A k v u -> ~ bare A k v.
Proof. intros (c & Hc & -> & Ac & _) B. apply (B c); auto. Qed.

Section Foot.
  Variables (V : list Pt) (A : region) (k : Pt).
  Hypothesis Enc : encloses V A.
  Hypothesis GP : forall v w, In v V -> In w V -> v <> w -> area2 k v w <> 0.
  Notation Ed := (Ed V).
  Notation Un := (Un V).
  Notation lit := (lit A k).
  Let RO : ringed Ed A := proj1 (proj2 (proj2 (enc_ring V A Enc))).
  Let ND : NoDup V := proj1 (enc_ring V A Enc).

  Lemma foot_or_bare v r : 0 < r < 1 -> (forall t, 0 < t < r -> ~ A (along k v (1 - t))) -> (exists u, foot A k v u) \/ bare A k v.
  Proof.
    intros Hr Free. destruct (classic (exists t, 0 < t < 1 /\ A (along k v t))) as [(t0 & Ht0 & At0)|N].
    2:{ right. intros t Ht At. apply N. eauto. }
    left. set (P := fun t => 0 < t < 1 /\ A (along k v t)). assert (P0 : P t0) by (split; auto).
    assert (B : bound P) by (exists 1; intros t [Ht _]; lra).
    destruct (completeness P B (ex_intro _ t0 P0)) as (m & Ub & Lub).
    assert (M0 : t0 <= m) by (apply Ub; auto).
    assert (M1 : m <= 1 - r). { apply Lub. intros t [Ht At]. apply Rnot_lt_le. intros L. apply (Free (1 - t)); [lra|]. replace (1 - (1 - t)) with t by ring. auto. }
    exists (along k v m). exists m. split; [lra|]. split; auto. split.
    - destruct (r_dec _ _ RO (along k v m)) as [|Nm]; auto. exfalso. pose proof (r_closed _ _ RO _ Nm) as O.
      destruct (nbhd_line _ (vsub v k) _ O) as (e & He & HB).
      assert (m <= m - e); [|lra]. apply Lub. intros t Pt'. apply Rnot_lt_le. intros L. assert (t <= m) by (apply Ub; auto).
      apply (HB (t - m)); [apply Rabs_def1; lra|]. replace (vadd (along k v m) (smul (t - m) (vsub v k))) with (along k v t) by (unv; apply pair_eq; ring). apply Pt'.
    - intros t Ht At. assert (t <= m); [|lra]. apply Ub. split; auto. lra.
  Qed.

  Lemma foot_edge v u : In v V -> lit v -> foot A k v u -> exists a b, Ed a b /\ in_seg a b u.
  Proof.
    intros Hv Lv (c & Hc & Eu & Au & Fu). assert (Nvk : v <> k) by (apply (vertex_not_k V A k Enc GP); auto).
    destruct (on_edges_dec V A Enc u) as [(a & b & H & S1)|N].
    - exists a, b. split; auto. apply on_seg_cases in S1. assert (Nu : ~ In u V).
      { intros Iu. assert (u = v). { apply (gp_br V k GP 1); auto. rewrite br_anti, Eu, br_ray, br_self. ring. }
        assert (c = 1); [|lra]. apply (along_inj k v); auto. rewrite along_1. congruence. }
      destruct (cyc_in _ _ _ H) as [Ia Ib]. destruct S1 as [->|[->|]]; auto; contradiction.
    - exfalso. pose proof (r_open _ _ RO u Au N) as O. destruct (nbhd_line _ (vsub v k) _ O) as (e & He & HB).
      set (t := Rmin (e / 2) ((1 - c) / 2)). assert (0 < t) by (apply Rmin_glb_lt; lra). pose proof (Rmin_l (e / 2) ((1 - c) / 2)). pose proof (Rmin_r (e / 2) ((1 - c) / 2)).
      apply (Fu (c + t)); [unfold t in *; lra|]. replace (along k v (c + t)) with (vadd u (smul t (vsub v k))) by (rewrite Eu; unv; apply pair_eq; ring).
      apply HB. rewrite Rabs_right; unfold t in *; lra.
  Qed.

  Section Side.
    Variable s : R.
    Hypothesis Hs : s = 1 \/ s = -1.
    Notation br := (br k s).

    Lemma nbhd_br w p : br w p < 0 -> nbhd p (fun y => br w y < 0).
    Proof.
      unfold L_Lit2.br. intros H. destruct Hs as [E|E]; rewrite E in *.
      - eapply nbhd_mono; [apply (nbhd_area_neg p k w)|]; [lra|]. cbv beta. intros. lra.
      - eapply nbhd_mono; [apply (nbhd_area p k w)|]; [lra|]. cbv beta. intros. lra.
    Qed.
    Lemma spread v c p (P : Pt -> Prop) : In v V -> p = along k v c -> 0 < c -> A p -> (c <> 1 \/ exists n, Un v n /\ 0 < br v n) ->
      nbhd p P -> exists q, A q /\ P q /\ 0 < br v q.
    Proof.
      intros Hv Ep Hc Ap Hn HP. assert (Nvk : v <> k) by (apply (vertex_not_k V A k Enc GP); auto).
      destruct (Req_dec c 1) as [E|Nc].
      { destruct Hn as [|(n & U & B)]; [congruence|]. rewrite E, along_1 in Ep. subst p. destruct (nbhd_seg v P HP n) as (r & Hr & Hr1 & HB).
        exists (along v n r). split; [apply (Un_A V A Enc v n); auto; exists r; split; auto; lra|]. split; [apply HB; lra|]. rewrite br_lin, br_self. nra. }
      assert (Bp : br v p = 0) by (rewrite Ep, br_ray, br_self; ring).
      destruct (on_edges_dec V A Enc p) as [(a & b & H & S1)|N].
      - assert (Np : ~ In p V). { intros Iu. assert (p = v). { apply (gp_br V k GP s Hs); auto. rewrite br_anti, Bp. ring. } apply Nc. apply (along_inj k v); auto. rewrite along_1. congruence. }
        assert (exists e, In e [a; b] /\ 0 < br v e) as (e & He & Be).
        { destruct S1 as (t & Ht & Et). destruct (cyc_in _ _ _ H) as [Ia Ib]. assert (E : (1 - t) * br v a + t * br v b = 0) by (rewrite <- br_lin, <- Et; auto).
          assert (Ha : a <> p) by (intros ->; auto). assert (Hb : b <> p) by (intros ->; auto).
          assert (t <> 0) by (intros ->; apply Ha; rewrite Et, along_0; auto). assert (t <> 1) by (intros ->; apply Hb; rewrite Et, along_1; auto).
          destruct (Rlt_dec 0 (br v a)) as [|L1]; [exists a; simpl; auto|]. destruct (Rlt_dec 0 (br v b)) as [|L2]; [exists b; simpl; auto|]. exfalso.
          assert (br v a = 0) by nra. assert (br v b = 0) by nra. assert (v = a) by (apply (gp_br V k GP s Hs); auto). assert (v = b) by (apply (gp_br V k GP s Hs); auto).
          apply (r_edge _ _ RO a b H). congruence. }
        destruct (nbhd_seg p P HP e) as (r & Hr & Hr1 & HB). exists (along p e r). split; [|split; [apply HB; lra|rewrite br_lin, Bp; nra]].
        apply (r_on _ _ RO). exists a, b. split; auto. destruct S1 as (t & Ht & Et). destruct He as [<-|[<-|[]]].
        + exists (t * (1 - r)). split; [nra|]. rewrite Et. unv. apply pair_eq; ring.
        + exists (t + r * (1 - t)). split; [nra|]. rewrite Et. unv. apply pair_eq; ring.
      - pose proof (nbhd_and _ _ _ (r_open _ _ RO p Ap N) HP) as O. set (d := (- s * (snd v - snd k), s * (fst v - fst k))).
        destruct (nbhd_line _ d _ O) as (r & Hr & HB). exists (vadd p (smul (r / 2) d)). destruct (HB (r / 2)) as [H1 H2]; [rewrite Rabs_right; lra|]. split; auto. split; auto.
        assert (Q : 0 < (fst v - fst k) * (fst v - fst k) + (snd v - snd k) * (snd v - snd k)).
        { clear - Nvk. set (e := fst v - fst k). set (f := snd v - snd k). pose proof (Rle_0_sqr e) as E1. pose proof (Rle_0_sqr f) as E2. unfold Rsqr in *. destruct (Req_dec e 0) as [Ee|Ne]; [destruct (Req_dec f 0) as [Ef|Nf]|].
          - exfalso. apply Nvk. unfold e, f in *. destruct v, k. cbn [fst snd] in *. apply pair_eq; lra.
          - pose proof (Rsqr_pos_lt f Nf). unfold Rsqr in *. lra.
          - pose proof (Rsqr_pos_lt e Ne). unfold Rsqr in *. lra. }
        replace (br v (vadd p (smul (r / 2) d))) with (br v p + (s * s) * (r / 2) * ((fst v - fst k) * (fst v - fst k) + (snd v - snd k) * (snd v - snd k))) by (unfold L_Lit2.br, d; unv; ring).
        rewrite Bp. replace (s * s) with 1 by (destruct Hs as [-> | ->]; ring). nra.
    Qed.

    (** rays next to that of [v] on the side s meet the polygon: their outermost points form part of an edge *)
    Lemma sweep v c : In v V -> lit v -> 0 < c -> A (along k v c) -> (c <> 1 \/ exists n, Un v n /\ 0 < br v n) ->
      exists a b y, Ed a b /\ in_seg a b y /\ lit y /\ 0 < br v y /\ forall w, In w V -> 0 < br v w -> br w y < 0.
    Proof.
      intros Hv Lv Hc Ap Hn.
      destruct (spread v c (along k v c) (fun y => forall w, In w V -> 0 < br v w -> br w y < 0) Hv eq_refl Hc Ap Hn) as (q & Aq & Pq & Bq).
      { apply (nbhd_forall _ V (fun w y => 0 < br v w -> br w y < 0)). intros w Hw. destruct (Rlt_dec 0 (br v w)) as [L|L]; [|apply nbhd_true; intros; lra].
        eapply nbhd_mono; [apply (nbhd_br w (along k v c))|]; [|cbv beta; auto]. rewrite br_ray, br_anti. nra. }
      assert (Nq : q <> k). { intros ->. unfold L_Lit2.br in Bq. replace (area2 k v k) with 0 in Bq by (unv; ring). lra. }
      destruct (outermost V A k Enc GP q Aq Nq) as (g & Hg & Lg). set (y := along k q g) in *.
      assert (Py : forall w, In w V -> 0 < br v w -> br w y < 0) by (intros w Hw L; unfold y; rewrite br_ray; specialize (Pq w Hw L); nra).
      assert (By : 0 < br v y) by (unfold y; rewrite br_ray; nra).
      assert (Ny : y <> k). { intros E. rewrite E in By. unfold L_Lit2.br in By. replace (area2 k v k) with 0 in By by (unv; ring). lra. }
      destruct (lit_cases V A k Enc GP y Lg Ny) as [Iy|(a & b & H & Iy & _)].
      - exfalso. specialize (Py y Iy By). rewrite br_self in Py. lra.
      - exists a, b, y. auto.
    Qed.

  End Side.
  Section Side2.
    Variable s : R.
    Hypothesis Hs : s = 1 \/ s = -1.
    Notation br := (br k s).
    Lemma arrive a b y z : Un a b -> in_seg a b y -> lit y -> 0 < br a b -> In z V -> lit z -> 0 < br y z -> 0 <= br z b ->
      (forall v, In v V -> lit v -> 0 < br y v -> 0 <= br v b -> 0 <= br z v) ->
      (forall c, on_seg a b c -> 0 <= br y c -> 0 < br c z -> lit c) ->
      exists x, on_seg a b x /\ port V A k s z x /\ exists c, 0 < c /\ x = along k z c.
    Proof.
      intros Hab Iy Ly Bab Hz Lz Z1 Z2 Z3 Z4. destruct (pt_dec z b) as [E|Nzb].
      { subst z. exists b. split; [apply on_seg_r|]. split; [|exists 1; rewrite along_1; split; auto; lra]. left. split; auto. exists a. split; [destruct Hab; [right|left]; auto|]. rewrite br_anti. lra. }
      pose proof (cq_yb V A k s a b y z Iy Ly Bab Z1 Z3 Z4) as Yb. pose proof (cq_zb V A k Enc GP s Hs a b z Hab Hz Z2 Nzb) as Zb.
      set (g := br y z / (br y z + br z b)).
      assert (Hg : 0 < g < 1). { unfold g. split; [apply Rdiv_lt_0_compat; lra|]. apply (Rmult_lt_reg_r (br y z + br z b)); [lra|]. unfold Rdiv. rewrite Rmult_assoc, Rinv_l; lra. }
      set (x := along y b g). assert (Ex : br x z = 0). { unfold x. replace (br (along y b g) z) with ((1 - g) * br y z - g * br z b) by (rewrite (br_anti k s z b); unfold L_Lit2.br; unv; ring). unfold g. field. lra. }
      assert (Nzk : k <> z) by (intros E; apply (vertex_not_k V A k Enc GP z Hz); auto).
      assert (E0 : area2 k z x = 0) by (rewrite area2_swap; unfold L_Lit2.br in Ex; destruct Hs as [Es|Es]; rewrite Es in Ex; lra).
      destruct (line_param k z x Nzk E0) as (c & Ec).
      assert (Bx : br y x = g * br y b) by (unfold x; rewrite br_lin, br_self; ring).
      assert (Hc : 0 < c). { assert (br y x = c * br y z) by (rewrite Ec; apply br_ray). nra. }
      assert (Nyb : y <> b) by (intros E; rewrite E, br_self in Yb; lra).
      assert (Ix : in_seg a b x) by (apply on_sub; auto; [apply in_seg_on; auto|apply on_seg_r]).
      assert (Ax : A x) by (apply (Un_A V A Enc a b x Hab); apply in_seg_on; auto).
      assert (Hc1 : c < 1).
      { apply Rnot_le_lt. intros L. destruct (Req_dec c 1) as [E|N]. { apply (Un_in_V V A Enc a b x Hab Ix). rewrite Ec, E, along_1. auto. }
        destruct Lz as [_ Nz]. apply (Nz (c - 1)); [lra|]. replace (beyond k z (c - 1)) with x; auto. rewrite Ec. unfold beyond. unv. apply pair_eq; ring. }
      exists x. split; [apply in_seg_on; auto|]. split; [|exists c; auto]. right. split; [intros n Hn; apply (appear V A k Enc GP s Hs a b y z Hab Iy Ly Bab Hz Lz Z1 Z2 Z3 Z4 Nzb n Hn)|].
      exists c. split; [lra|]. split; auto. split; auto. intros t Ht At.
      (* a point of A between x and z: rays a little before z would not end at the edge *)
      set (p := along k z t). assert (Hs' : - s = 1 \/ - s = -1) by (destruct Hs as [-> | ->]; [right|left]; lra).
      assert (FK : 0 < s * area2 a b k) by (replace (area2 a b k) with (area2 k a b) by (unv; ring); exact Bab).
      assert (FP : s * area2 a b p < 0).
      { assert (E : area2 a b p = (1 - t / c) * area2 a b k + t / c * area2 a b x). { rewrite Ec. unfold p. clearbody x p. clear - Hc. unv. field. lra. }
        rewrite E, (area_on_seg a b x (in_seg_on _ _ _ Ix)), Rmult_0_r, Rplus_0_r. assert (1 < t / c). { apply (Rmult_lt_reg_r c); auto. unfold Rdiv. rewrite Rmult_assoc, Rinv_l; lra. } nra. }
      destruct (spread (- s) Hs' z t p (fun q => br b q < 0 /\ L_Lit2.br k (- s) y q < 0 /\ s * area2 a b q < 0)) as (q & Aq & (Q1 & Q2 & Q3) & Q4); auto; try lra.
      { apply nbhd_and; [apply (nbhd_br s Hs); unfold p; rewrite br_ray, br_anti; nra|]. apply nbhd_and.
        - apply (nbhd_br (- s) Hs'). unfold p. rewrite br_ray. unfold L_Lit2.br in *. nra.
        - destruct Hs as [Es|Es]; rewrite Es in *.
          + eapply nbhd_mono; [apply (nbhd_area_neg p a b)|]; [lra|]. cbv beta. intros. lra.
          + eapply nbhd_mono; [apply (nbhd_area p a b)|]; [lra|]. cbv beta. intros. lra. }
      assert (Y1 : 0 < br y q) by (unfold L_Lit2.br in *; lra). assert (Y2 : 0 < br q b) by (rewrite br_anti; lra).
      assert (Y3 : 0 < br q z) by (rewrite br_anti; unfold L_Lit2.br in *; lra).
      set (fk := s * area2 a b k) in *. set (fq := s * area2 a b q) in *. set (h := fk / (fk - fq)).
      assert (Hh : 0 < h < 1). { unfold h. split; [apply Rdiv_lt_0_compat; lra|]. apply (Rmult_lt_reg_r (fk - fq)); [lra|]. unfold Rdiv. rewrite Rmult_assoc, Rinv_l; lra. }
      set (cc := along k q h). assert (Ecc : s * area2 a b cc = 0).
      { replace (s * area2 a b cc) with ((1 - h) * fk + h * fq) by (unfold fk, fq, cc; unv; ring). unfold h. field. lra. }
      assert (Ecc' : area2 a b cc = 0) by (destruct Hs as [Es|Es]; rewrite Es in Ecc; lra).
      assert (Nab : a <> b) by apply (Un_V V A k Enc GP s Hs a b Hab).
      destruct (line_param a b cc Nab Ecc') as (w & Ew).
      assert (W1 : 0 < br y cc) by (unfold cc; rewrite br_ray; nra).
      assert (W2 : 0 < br cc b) by (rewrite br_anti; unfold cc; rewrite br_ray; nra).
      assert (W3 : 0 < br cc z) by (rewrite br_anti; unfold cc; rewrite br_ray, (br_anti k s z q); nra).
      assert (Scc : on_seg a b cc).
      { exists w. split; auto. destruct Iy as (ty & Hty & Ey).
        assert (D1 : br cc b = (1 - w) * br a b) by (rewrite Ew; unfold L_Lit2.br; unv; ring).
        assert (D2 : br y cc = (w - ty) * br a b) by (rewrite Ew, Ey; unfold L_Lit2.br; unv; ring). nra. }
      destruct (Z4 cc Scc) as [_ Ncc]; try lra.
      apply (Ncc (1 / h - 1)). { assert (1 < 1 / h) by (apply (Rmult_lt_reg_r h); [lra|]; unfold Rdiv; rewrite Rmult_assoc, Rinv_l; lra). lra. }
      replace (beyond k cc (1 / h - 1)) with q; auto. unfold cc, beyond. clearbody h. clear - Hh. destruct q, k. unfold along, vadd, vsub, smul. cbn [fst snd]. apply pair_eq; field; lra.
    Qed.
  End Side2.
End Foot.
