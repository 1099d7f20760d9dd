(** What polygon_kernel_starshaped_hull does at each vertex when there is a single kernel point. *)
From Coq Require Import QArith Reals Lra Lia Psatz List Bool Arith ZArith.
From Verif Require Import Num Spec M_Cg M_Motion M_Obstacle M_PolHull S_PolHull S_HullOne L_Geom L_Cg L_PolHull L_PolHull2 L_PolHull3 L_Ring L_Ring2 L_Wind L_Lit L_Lit2 L_Order L_Order2 L_Lit3 L_Lit4 L_Lit5 L_Lit6.
Import ListNotations.
Open Scope R_scope.

Lemma parts_region (g : geom R) x : geom_region g x <-> exists p, In p (parts_of g) /\ part_region p x.
Proof.
  destruct g; cbn [geom_region parts_of].
  - split; [intros []|intros (p & [] & _)].
  - split; [intros H; exists (PLine coords); simpl; auto|intros (p & [<-|[]] & H); auto].
  - split; [intros (l & Hl & H); exists (PLine l); split; auto; apply in_map; auto|].
    intros (p & Hp & H). apply in_map_iff in Hp as (l & <- & Hl). exists l. auto.
  - tauto.
  - split; [intros H; exists (PPoint x); split; [apply in_map; auto|reflexivity]|].
    intros (p & Hp & H). apply in_map_iff in Hp as (l & <- & Hl). cbn in H. subst. auto.
Qed.
Lemma polyline2 (a b x : Pt) : polyline [a; b] x <-> on_seg a b x.
Proof.
  unfold polyline. cbn [tl combine]. split.
  - intros [[<-|[<-|[]]]|(p & q & [E|[]] & H)]; [apply on_seg_l|apply on_seg_r|]. injection E as <- <-. auto.
  - intros H. right. exists a, b. split; [left; auto|auto].
Qed.
Lemma find_only {B} (f : B -> bool) l u : In u l -> f u = true -> (forall x, In x l -> f x = true -> x = u) -> find f l = Some u.
Proof.
  induction l as [|a l IH]; intros Hu Fu Ho; [destruct Hu|]. cbn [find]. destruct (f a) eqn:E; [f_equal; apply Ho; auto; left; auto|].
  apply IH; auto; [destruct Hu as [->|]; auto; congruence|]. intros x Hx. apply Ho. right. auto.
Qed.
Lemma find_none_all {B} (f : B -> bool) l : (forall x, In x l -> f x = false) -> find f l = None.
Proof. induction l as [|a l IH]; intros H; auto. cbn [find]. rewrite (H a) by (left; auto). apply IH. intros. apply H. right. auto. Qed.

Lemma listed_plain (g0 : geom R) x : (forall q, ~ In (PPoint q) (parts_of g0)) -> (forall l, In (PLine l) (parts_of g0) -> exists a b, l = [a; b] /\ a <> b) ->
  (forall gs, g0 = GCollection gs -> exists q, In (PPoint q) gs) ->
  In x (intersection_points g0) <-> exists a b, In (PLine [a; b]) (parts_of g0) /\ (x = a \/ x = b).
Proof.
      intros NP PP PM.
      destruct g0 as [|c|ls|gs|ps]; cbn [intersection_points parts_of] in *.
      - split; [intros []|intros (a & b & [] & _)].
      - destruct (PP c) as (a & b & -> & _); [left; auto|]. split.
        + intros [<-|[<-|[]]]; exists a, b; split; simpl; auto.
        + intros (a' & b' & [E|[]] & H). injection E as <- <-. simpl. destruct H as [-> | ->]; auto.
      - rewrite in_concat. split.
        + intros (l & Hl & Hx). destruct (PP l) as (a & b & -> & _); [apply in_map; auto|]. exists a, b. split; [apply in_map; auto|]. destruct Hx as [<-|[<-|[]]]; auto.
        + intros (a & b & H & Hx). apply in_map_iff in H as (l & E & Hl). injection E as ->. exists [a; b]. split; auto. simpl. destruct Hx as [-> | ->]; auto.
      - destruct (PM gs eq_refl) as (q & Hq). exfalso. apply (NP q Hq).
      - destruct ps as [|q ps]. { split; [intros []|intros (a & b & [] & _)]. } exfalso. apply (NP q). left. auto.
Qed.

Section One.
  Variables (V : list Pt) (A : region) (k : Pt) (W : pol_world R).
  Hypothesis Enc : encloses V A.
  Hypothesis F : faithful A [k] W.
  Hypothesis Ro : roomy V k.
  Hypothesis Pl : forall v, In v V -> plain (pw_meet W (line_seg (k : pt R) v)).
  Let GP := ro_gp V k Ro.
  Notation Ed := (Ed V).
  Notation Un := (Un V).
  Notation lit := (lit A k).
  Let RO : ringed Ed A := proj1 (proj2 (proj2 (enc_ring V A Enc))).
  Let ND : NoDup V := proj1 (enc_ring V A Enc).
  Let s1 : 1 = 1 \/ 1 = -1 := or_introl eq_refl.
  Let s2 : -1 = 1 \/ -1 = -1 := or_intror eq_refl.

  Lemma seg_params v x : seg_region (line_seg (k : pt R) v) x <-> exists t, 1 / 10000 <= t <= 9999 / 10000 /\ x = along k v t.
  Proof.
    rewrite line_seg_along. unfold seg_region. cbn [fst snd]. split.
    - intros (t & Ht & ->). rewrite along_along'. eexists. split; [|reflexivity]. lra.
    - intros (t & Ht & ->). exists ((t - 1 / 10000) / (9999 / 10000 - 1 / 10000)). split.
      + split; [apply Rmult_le_pos; [lra|apply Rlt_le, Rinv_0_lt_compat; lra]|]. apply (Rmult_le_reg_r (9999 / 10000 - 1 / 10000)); [lra|]. unfold Rdiv at 1. rewrite Rmult_assoc, Rinv_l; lra.
      + rewrite along_along'. f_equal. field.
  Qed.
  Lemma vertex_ring v : In v V -> on_ring V (along k v 1).
  Proof. intros Hv. rewrite along_1. apply (L_Lit.vertex_on V v Hv). Qed.

  (** *** visible vertices *)
  Lemma visible_lit v : In v V -> (visible W [k] v = true <-> lit v).
  Proof.
    intros Hv. rewrite (visible_open A [k] W F). split.
    - intros H. specialize (H k (or_introl eq_refl)).
      destruct (lit_dec V A k Enc GP v) as [|(g & Hg & Lg)]; auto. { apply (vertex_A V A Enc); auto. } { apply (vertex_not_k V A k Enc GP); auto. }
      exfalso. assert (Ng : along k v g <> k). { intros E. assert (g = 0); [|lra]. apply (along_inj k v); [apply not_eq_sym, (vertex_not_k V A k Enc GP v Hv)|]. rewrite along_0; auto. }
      assert (Og : on_ring V (along k v g)) by (apply (lit_edge V A k Enc); auto).
      pose proof (ro_near V k Ro v g Hv ltac:(lra) Og) as B1. pose proof (ro_step V k Ro v 1 g Hv ltac:(lra) (vertex_ring v Hv) Og) as B2.
      apply (H (g - 1)); [lra|]. replace (vadd v (smul (g - 1) (vsub v k))) with (along k v g); [apply Lg|]. unv. apply pair_eq; ring.
    - intros [_ Lv] k' [<-|[]] t Ht. apply (Lv t). lra.
  Qed.

  (** *** the segment from the kernel point to a vertex *)
  Section Meet.
    Variable v : Pt.
    Hypothesis Hv : In v V.
    Hypothesis Lv : lit v.
    Let g := pw_meet W (line_seg (k : pt R) v).
    Let Pg : plain g := Pl v Hv.
    Let Nk : k <> v := not_eq_sym (vertex_not_k V A k Enc GP v Hv).

    Lemma meet_in x : geom_region g x <-> exists t, 1 / 10000 <= t <= 9999 / 10000 /\ x = along k v t /\ A x.
    Proof.
      unfold g. rewrite (f_meet _ _ _ F), seg_params. split; [intros [(t & Ht & E) HA]; eauto|intros (t & Ht & E & HA); eauto].
    Qed.
    Lemma ring_edge t : 0 < t -> t <> 1 -> on_ring V (along k v t) -> exists a b, Ed a b /\ in_seg a b (along k v t) /\ area2 a b k <> 0.
    Proof.
      intros Ht N1 (a & b & H & S1). exists a, b. split; auto. destruct (cyc_in _ _ _ H) as [Ia Ib].
      assert (Nu : ~ In (along k v t) V). { intros Iu. assert (E : along k v t = v). { apply (gp_br V k GP 1 s1); auto. rewrite br_anti, br_ray, br_self. ring. } apply N1. apply (along_inj k v); auto. rewrite along_1. auto. }
      split; [apply on_seg_cases in S1; destruct S1 as [E|[E|]]; auto; rewrite E in Nu; contradiction|].
      replace (area2 a b k) with (area2 k a b) by (unv; ring). apply (edge_area V A k Enc GP); auto.
    Qed.
    (** a point of the polygon on the segment is not alone *)
    Lemma thick t : 1 / 10000 <= t <= 9999 / 10000 -> A (along k v t) -> exists d r, (d = 1 \/ d = -1) /\ 0 < r /\ forall e, 0 < e < r -> A (along k v (t + d * e)) /\ 1 / 10000 <= t + d * e <= 9999 / 10000.
    Proof.
      intros Ht At. destruct (on_edges_dec V A Enc (along k v t)) as [On|N].
      - pose proof (ro_near V k Ro v t Hv ltac:(lra) On) as B1. pose proof (ro_step V k Ro v t 1 Hv ltac:(lra) On (vertex_ring v Hv)) as B2.
        destruct (ring_edge t) as (a & b & H & I1 & Nk0); auto; try lra.
        pose proof (r_side _ _ RO a b _ H I1) as S1. destruct (nbhd_line _ (vsub v k) _ S1) as (r & Hr & HB).
        assert (Z0 : area2 a b (along k v t) = 0) by (apply area_on_seg, in_seg_on; auto).
        assert (Lin : forall e, area2 a b (along k v (t + e)) = - (e / t) * area2 a b k).
        { intros e. assert (E : t * area2 a b (along k v (t + e)) = (t + e) * area2 a b (along k v t) - e * area2 a b k) by (unv; ring). rewrite Z0 in E.
          apply (Rmult_eq_reg_l t); [|lra]. rewrite E. field. lra. }
        set (d := if Rlt_dec 0 (area2 a b k) then -1 else 1). exists d, (Rmin r (1 / 10000)). split; [unfold d; destruct (Rlt_dec _ _); auto|].
        assert (Hm : 0 < Rmin r (1 / 10000)) by (apply Rmin_glb_lt; lra). split; auto. intros e He. pose proof (Rmin_l r (1 / 10000)). pose proof (Rmin_r r (1 / 10000)).
        assert (De : d * e = e \/ d * e = - e) by (unfold d; destruct (Rlt_dec _ _); [right|left]; ring). split; [|destruct De as [-> | ->]; lra].
        assert (Rd : Rabs (d * e) < r) by (destruct De as [-> | ->]; [rewrite Rabs_right|rewrite Rabs_Ropp, Rabs_right]; lra).
        destruct (HB (d * e) Rd) as [H9 _]. replace (vadd (along k v t) (smul (d * e) (vsub v k))) with (along k v (t + d * e)) in H9 by (unv; apply pair_eq; ring).
        apply H9. rewrite Lin. assert (0 < e / t) by (apply Rdiv_lt_0_compat; lra). unfold d. destruct (Rlt_dec 0 (area2 a b k)).
        + replace (-1 * e / t) with (- (e / t)) by (field; lra). nra.
        + replace (1 * e / t) with (e / t) by (field; lra). nra.
      - pose proof (r_open _ _ RO _ At N) as O. destruct (nbhd_line _ (vsub v k) _ O) as (r & Hr & HB).
        set (d := if Rlt_dec t (1 / 2) then 1 else -1). exists d, (Rmin r (1 / 10000)). split; [unfold d; destruct (Rlt_dec _ _); auto|].
        assert (Hm : 0 < Rmin r (1 / 10000)) by (apply Rmin_glb_lt; lra). split; auto. intros e He. pose proof (Rmin_l r (1 / 10000)). pose proof (Rmin_r r (1 / 10000)).
        assert (De : (d * e = e /\ t < 1 / 2) \/ (d * e = - e /\ 1 / 2 <= t)) by (unfold d; destruct (Rlt_dec _ _); [left|right]; split; lra). split; [|destruct De as [[-> ?] |[-> ?]]; lra].
        assert (Rd : Rabs (d * e) < r) by (destruct De as [[-> ?] |[-> ?]]; [rewrite Rabs_right|rewrite Rabs_Ropp, Rabs_right]; lra).
        specialize (HB (d * e) Rd). replace (vadd (along k v t) (smul (d * e) (vsub v k))) with (along k v (t + d * e)) in HB by (unv; apply pair_eq; ring). auto.
    Qed.
    Lemma part_ends l : In (PLine l) (parts_of g) -> exists a b ta tb, l = [a; b] /\ ta <> tb /\ a = along k v ta /\ b = along k v tb /\
      1 / 10000 <= ta <= 9999 / 10000 /\ 1 / 10000 <= tb <= 9999 / 10000 /\ A a /\ A b.
    Proof.
      intros Hl. destruct (pl_part g Pg l Hl) as (a & b & -> & Nab).
      assert (Ga : geom_region g a) by (apply parts_region; exists (PLine [a; b]); split; auto; apply polyline2, on_seg_l).
      assert (Gb : geom_region g b) by (apply parts_region; exists (PLine [a; b]); split; auto; apply polyline2, on_seg_r).
      apply meet_in in Ga as (ta & Hta & Ea & Aa). apply meet_in in Gb as (tb & Htb & Eb & Ab).
      exists a, b, ta, tb. repeat split; auto; try lra. intros ->. congruence.
    Qed.
    (** near a point of one part there is no other part *)
    Lemma alone P p Q x : parts_of g = P ++ p :: Q -> part_region p x -> nbhd x (fun y => geom_region g y -> part_region p y).
    Proof.
      intros E Hx. eapply nbhd_mono; [apply (nbhd_forall x (P ++ Q) (fun q y => ~ part_region q y))|].
      - intros q Hq. pose proof (pl_apart g Pg P p Q x q E Hq Hx) as N. destruct q as [z|l]; cbn [part_region] in *.
        + destruct (nbhd_true x (fun _ => True)) as (r0 & Hr0 & _); auto. exists (dist x z). split.
          * destruct (dist_nonneg x z) as [|E0]; auto. exfalso. apply N. symmetry in E0. apply dist_zero in E0. auto.
          * intros y Hy ->. lra.
        + assert (Hl : In (PLine l) (parts_of g)) by (rewrite E; apply in_app_or in Hq as [|]; apply in_or_app; simpl; auto).
          destruct (pl_part g Pg l Hl) as (a & b & -> & Nab). rewrite polyline2 in N.
          eapply nbhd_mono; [apply (off_seg_nbhd a b x Nab N)|]. cbv beta. intros y Hy. rewrite polyline2. auto.
      - cbv beta. intros y Hy Gy. apply parts_region in Gy as (q & Hq & Qy). rewrite E in Hq.
        apply in_app_or in Hq as [Hq|[<-|Hq]]; auto; exfalso; apply (Hy q); auto; apply in_or_app; auto.
    Qed.
    Lemma no_point x : ~ In (PPoint x) (parts_of g).
    Proof.
      intros Hp. assert (G : geom_region g x) by (apply parts_region; exists (PPoint x); split; auto; reflexivity).
      apply meet_in in G as (t & Ht & Ex & Ax). pose proof Hp as Hp'. apply in_split in Hp' as (P & Q & E).
      pose proof (alone P (PPoint x) Q x E eq_refl) as Al. cbn [part_region] in Al.
      rewrite Ex in Ax. destruct (thick t Ht Ax) as (d & r & Hd & Hr & HT). destruct (nbhd_line _ (vsub v k) _ Al) as (r' & Hr' & HB).
      set (e := Rmin (r / 2) (r' / 2)). assert (0 < e) by (apply Rmin_glb_lt; lra). assert (e <= r / 2) by apply Rmin_l. assert (e <= r' / 2) by apply Rmin_r.
      destruct (HT e ltac:(lra)) as [A1 B1]. assert (Y : vadd x (smul (d * e) (vsub v k)) = x).
      { apply HB; [destruct Hd as [-> | ->]; apply Rabs_def1; lra|]. apply meet_in. exists (t + d * e). split; auto.
        assert (E2 : vadd x (smul (d * e) (vsub v k)) = along k v (t + d * e)) by (rewrite Ex; unv; apply pair_eq; ring). rewrite E2. auto. }
      assert (E2 : vadd x (smul (d * e) (vsub v k)) = along k v (t + d * e)) by (rewrite Ex; unv; apply pair_eq; ring).
      rewrite E2, Ex in Y. apply (along_inj k v) in Y; auto. destruct Hd as [-> | ->]; lra.
    Qed.
    Lemma listed x : In x (intersection_points g) <-> exists a b, In (PLine [a; b]) (parts_of g) /\ (x = a \/ x = b).
    Proof.
      apply listed_plain; [exact no_point|exact (pl_part g Pg)|exact (pl_mixed g Pg)].
    Qed.
    (** a listed point is an end of the segment or on the ring *)
    Lemma listed_at x : In x (intersection_points g) -> exists t, 1 / 10000 <= t <= 9999 / 10000 /\ x = along k v t /\ A x /\ (t = 1 / 10000 \/ t = 9999 / 10000 \/ on_ring V x).
    Proof.
      intros Hx. apply listed in Hx as (a & b & Hp & Hx). destruct (part_ends _ Hp) as (a' & b' & ta & tb & E & Nt & Ea & Eb & Hta & Htb & Aa & Ab). injection E as <- <-.
      assert (G : forall t t' c, (x = along k v t) -> c = along k v t' -> t <> t' -> 1 / 10000 <= t <= 9999 / 10000 -> A x -> (forall y, on_seg a b y <-> on_seg x c y) ->
        exists t, 1 / 10000 <= t <= 9999 / 10000 /\ x = along k v t /\ A x /\ (t = 1 / 10000 \/ t = 9999 / 10000 \/ on_ring V x)).
      { intros t t' c Ex Ec Ntt Ht Ax Sw. exists t. split; auto. split; auto. split; auto.
        destruct (Req_dec t (1 / 10000)) as [|N1]; auto. destruct (Req_dec t (9999 / 10000)) as [|N2]; auto. right. right.
        destruct (on_edges_dec V A Enc x) as [|N]; auto. exfalso. pose proof (r_open _ _ RO x Ax N) as O.
        apply in_split in Hp as (P & Q & EP). assert (Px : part_region (PLine [a; b]) x) by (apply polyline2, Sw, on_seg_l).
        pose proof (nbhd_and _ _ _ O (alone P (PLine [a; b]) Q x EP Px)) as Al. destruct (nbhd_line _ (vsub v k) _ Al) as (r & Hr & HB).
        set (m := Rmin (r / 2) (Rmin (t - 1 / 10000) (9999 / 10000 - t))). assert (Hm : 0 < m) by (repeat apply Rmin_glb_lt; lra).
        assert (M1 : m <= r / 2) by apply Rmin_l. assert (M2 : m <= t - 1 / 10000) by (eapply Rle_trans; [apply Rmin_r|apply Rmin_l]). assert (M3 : m <= 9999 / 10000 - t) by (eapply Rle_trans; [apply Rmin_r|apply Rmin_r]).
        assert (Out : forall d, (d = 1 \/ d = -1) -> on_seg x c (along k v (t + d * m))).
        { intros d Hd. apply Sw, polyline2. assert (E2 : vadd x (smul (d * m) (vsub v k)) = along k v (t + d * m)) by (rewrite Ex; unv; apply pair_eq; ring).
          destruct (HB (d * m)) as [A1 A2]. { destruct Hd as [-> | ->]; apply Rabs_def1; lra. } rewrite E2 in A1, A2.
          apply A2. apply meet_in. exists (t + d * m). split; [destruct Hd as [-> | ->]; lra|auto]. }
        destruct (Out 1 (or_introl eq_refl)) as (u1 & Hu1 & U1). destruct (Out (-1) (or_intror eq_refl)) as (u2 & Hu2 & U2). rewrite Ex, Ec, along_along' in U1, U2.
        apply (along_inj k v) in U1; auto. apply (along_inj k v) in U2; auto. destruct (Rle_dec t t'); nra. }
      destruct Hx as [-> | ->].
      - apply (G ta tb b); auto. tauto.
      - apply (G tb ta a); auto. intros y. split; apply on_seg_sym.
    Qed.

    Lemma line_disjoint t : t < 1 -> (pw_disjoint W (line_seg (along k v t : pt R) v) = true <-> forall u, t + (1 - t) / 10000 <= u <= t + (1 - t) * (9999 / 10000) -> ~ A (along k v u)).
    Proof.
      intros Ht. rewrite (f_disjoint _ _ _ F), line_seg_along. unfold seg_region. cbn [fst snd].
      assert (AA : forall w, along (along k v t) v w = along k v (t + w * (1 - t))) by (intros; unv; apply pair_eq; ring). rewrite !AA.
      split.
      - intros H u Hu. apply H. exists ((u - (t + 1 / 10000 * (1 - t))) / (9998 / 10000 * (1 - t))). assert (D : 0 < 9998 / 10000 * (1 - t)) by lra. split.
        + split; [apply Rmult_le_pos; [lra|apply Rlt_le, Rinv_0_lt_compat; auto]|]. apply (Rmult_le_reg_r (9998 / 10000 * (1 - t))); auto. unfold Rdiv at 1. rewrite Rmult_assoc, Rinv_l; lra.
        + rewrite along_along'. f_equal. field. lra.
      - intros H x (w & Hw & ->). rewrite along_along'. apply H. split; nra.
    Qed.

    Lemma find_foot u : foot A k v u -> find (fun uc => pw_disjoint W (line_seg uc v)) (intersection_points g) = Some u /\ exists c, u = along k v c /\ 1 / 1000 <= c <= 999 / 1000.
    Proof.
      intros (c & Hc & Eu & Au & Fr).
      assert (On : on_ring V u) by (destruct (foot_edge V A k Enc GP v u Hv Lv (ex_intro _ c (conj Hc (conj Eu (conj Au Fr))))) as (a & b & H & I1); exists a, b; split; auto; apply in_seg_on; auto).
      assert (On' : on_ring V (along k v c)) by (rewrite <- Eu; auto).
      pose proof (ro_near V k Ro v c Hv ltac:(lra) On') as B1. pose proof (ro_step V k Ro v c 1 Hv ltac:(lra) On' (vertex_ring v Hv)) as B2.
      split; [|exists c; split; auto; lra]. apply find_only.
      - apply listed. assert (G : geom_region g u) by (apply meet_in; exists c; split; auto; lra).
        apply parts_region in G as (p & Hp & Pu). destruct p as [q|l]; [exfalso; apply (no_point q Hp)|].
        destruct (part_ends l Hp) as (a & b & ta & tb & -> & Nt & Ea & Eb & Hta & Htb & Aa & Ab). exists a, b. split; auto.
        cbn [part_region] in Pu. apply polyline2 in Pu as (w & Hw & Ew). rewrite Ea, Eb, along_along', Eu in Ew. apply (along_inj k v) in Ew; auto.
        assert (ta <= c) by (apply Rnot_lt_le; intros L; apply (Fr ta); [lra|congruence]). assert (tb <= c) by (apply Rnot_lt_le; intros L; apply (Fr tb); [lra|congruence]).
        assert (ta = c \/ tb = c) as [E|E] by (destruct (Req_dec ta c); auto; right; destruct (Req_dec w 1); [subst; lra|nra]); [left|right]; congruence.
      - rewrite Eu. apply line_disjoint; [lra|]. intros w Hw. apply Fr. lra.
      - intros x Hx Dx. destruct (listed_at x Hx) as (t & Ht & Ex & Ax & Cs). destruct (Req_dec t c) as [->|Ntc]; [congruence|]. exfalso.
        assert (Lt : t < c). { apply Rnot_le_lt. intros L. apply (Fr t); [lra|congruence]. }
        assert (Gap : 9 / 10000 <= c - t). { destruct Cs as [->|[->|Or]]; try lra. rewrite Ex in Or. pose proof (ro_step V k Ro v t c Hv ltac:(lra) Or On'). lra. }
        rewrite Ex in Dx. rewrite line_disjoint in Dx by lra. apply (Dx c); [split; lra|]. congruence.
    Qed.
    Lemma meet_empty : bare A k v -> g = GEmpty.
    Proof. intros B. apply (f_meet_empty _ _ _ F). intros x Hx. apply seg_params in Hx as (t & Ht & ->). apply B. lra. Qed.
    Lemma meet_not_empty t : 1 / 10000 <= t <= 9999 / 10000 -> A (along k v t) -> g <> GEmpty.
    Proof. intros Ht At E. unfold g in E. rewrite (f_meet_empty _ _ _ F) in E. apply (E (along k v t)); auto. apply seg_params. eauto. Qed.
    Lemma find_through u w : Ed u v -> Ed v w -> 0 < area2 k u v -> 0 < area2 k v w ->
      g <> GEmpty /\ find (fun uc => pw_disjoint W (line_seg uc v)) (intersection_points g) = None.
    Proof.
      intros Hu Hw Pu Pw. destruct (below_through V A k Enc GP u v w Hu Hw Lv Pu Pw) as (r & Hr & HA).
      assert (Full : forall t, 999 / 1000 < t < 1 -> A (along k v t)).
      { intros t Ht. set (e := Rmin (r / 2) (1 - t)). assert (He : 0 < e) by (apply Rmin_glb_lt; lra). assert (e <= r / 2) by apply Rmin_l. assert (e <= 1 - t) by apply Rmin_r.
        apply (seg_const V A Enc (along k v (1 - e))); [|apply HA; lra]. intros z (q & Hq & ->). rewrite along_along'. intros On.
        set (t' := 1 - e + q * (t - (1 - e))) in *. assert (T' : 999 / 1000 < t' < 1) by (unfold t'; split; nra).
        pose proof (ro_step V k Ro v t' 1 Hv ltac:(lra) On (vertex_ring v Hv)). lra. }
      split; [apply (meet_not_empty (9995 / 10000)); [lra|apply Full; lra]|].
      apply find_none_all. intros x Hx. destruct (listed_at x Hx) as (t & Ht & Ex & Ax & _). rewrite Ex.
      destruct (pw_disjoint W _) eqn:D; auto. rewrite line_disjoint in D by lra. exfalso. apply (D (t + (1 - t) * (9999 / 10000))); [split; lra|]. apply Full. split; nra.
    Qed.
  End Meet.
End One.
