(** The visible vertex that follows another one. *)
From Coq Require Import Reals Lra Lia Psatz List Arith.
From Verif Require Import Num Spec S_PolHull L_Geom L_PolHull L_PolHull3 L_Ring L_Ring2 L_Lit L_Lit2 L_Order L_Order2 L_Lit3.
Import ListNotations.
Open Scope R_scope.

Section Conseq.
  Variables (V : list Pt) (A : region) (k : Pt).
  Hypothesis Enc : encloses V A.
  Hypothesis GP : forall v w, In v V -> In w V -> v <> w -> area2 k v w <> 0.
  Notation Ed := (Ed V).
  Notation Un := (Un V).
  Notation lit := (lit A k).
  Let RO : ringed Ed A := proj1 (proj2 (proj2 (enc_ring V A Enc))).
  Variable s : R.
  Hypothesis Hs : s = 1 \/ s = -1.
  Notation br := (br k s).
  Variables (a b y z : Pt).
  Hypothesis Hab : Un a b.
  Hypothesis Iy : in_seg a b y.
  Hypothesis Ly : lit y.
  Hypothesis Bab : 0 < br a b.
  Hypothesis Hz : In z V.
  Hypothesis Lz : lit z.
  Hypothesis Z1 : 0 < br y z.
  Hypothesis Z2 : 0 <= br z b.
  Hypothesis Z3 : forall v, In v V -> lit v -> 0 < br y v -> 0 <= br v b -> 0 <= br z v.
  Hypothesis Z4 : forall c, on_seg a b c -> 0 <= br y c -> 0 < br c z -> lit c.
  Hypothesis Nzb : z <> b.

  Lemma cq_yb : 0 < br y b.
  Proof. destruct Iy as (t & Ht & ->). replace (br (along a b t) b) with ((1 - t) * br a b) by (unfold L_Lit2.br; unv; ring). nra. Qed.
  Lemma cq_ya : br y a < 0.
  Proof. destruct Iy as (t & Ht & ->). replace (br (along a b t) a) with (- t * br a b) by (unfold L_Lit2.br; unv; ring). nra. Qed.
  Lemma cq_zb : 0 < br z b.
  Proof. destruct Z2 as [|E]; auto. exfalso. apply Nzb. apply (gp_br V k GP s Hs); auto. apply (Un_V V A k Enc GP s Hs a b Hab). Qed.

  (** both neighbours of the next visible vertex are further along *)
  Lemma appear n : Un z n -> 0 < br z n.
  Proof.
    intros Hn. pose proof (Un_V V A k Enc GP s Hs z n Hn) as (_ & _ & _ & Nn). apply Rnot_le_lt. intros L. assert (L' : br z n < 0) by (unfold L_Lit2.br in *; lra). exfalso.
    pose proof cq_yb as Yb. pose proof cq_zb as Zb. pose proof cq_ya as Ya.
    assert (Hs' : - s = 1 \/ - s = -1) by (destruct Hs as [-> | ->]; [right|left]; lra).
    assert (Opp : forall p q, L_Lit2.br k (- s) p q = - br p q) by (intros; unfold L_Lit2.br; ring).
    destruct (near_lit V A k Enc GP (- s) Hs' z n Hn Lz) as (n' & x & U & Bn & Ix & Lx & _). { rewrite Opp. lra. }
    rewrite Opp in Bn.
    assert (Bx : br z x < 0) by (destruct Ix as (g & Hg & ->); rewrite br_lin, br_self; nra).
    (* a lit point c' on that edge, close to z *)
    assert (exists t, 0 < t <= 1 /\ 0 < (1 - t) * br y z + t * br y x) as (t & Ht & Pt').
    { set (f0 := br y z) in *. set (f1 := br y x) in *.
      exists (f0 / (f0 + Rabs f1 + f0)). pose proof (Rabs_pos f1). pose proof (Rle_abs (- f1)) as Q. rewrite Rabs_Ropp in Q. set (D := f0 + Rabs f1 + f0). assert (HD : 0 < D) by (unfold D; lra).
      assert (T : f0 / D * D = f0) by (field; lra). assert (T0 : 0 < f0 / D) by (apply Rdiv_lt_0_compat; auto). set (q := f0 / D) in *. unfold D in T. split; [split; nra|]. nra. }
    set (c' := along z x t). assert (Lc' : lit c') by (apply Lx; lra).
    assert (C1 : 0 < br y c') by (unfold c'; rewrite br_lin; auto).
    assert (C2 : 0 < br c' z) by (rewrite br_anti; unfold c'; rewrite br_lin, br_self; nra).
    assert (C3 : 0 < br c' b).
    { pose proof (br_pl k s y c' z b) as P. assert (0 < br y c' * br z b) by (apply Rmult_lt_0_compat; auto). assert (0 < br y b * br c' z) by (apply Rmult_lt_0_compat; auto). assert (0 < br y z * br c' b) by lra. nra. }
    assert (Ic' : in_seg z n' c'). { destruct Ix as (g & Hg & ->). exists (t * g). split; [nra|]. unfold c'. unv. apply pair_eq; ring. }
    set (g := br y c' / (br y c' + br c' b)).
    assert (Hg : 0 < g < 1). { unfold g. split; [apply Rdiv_lt_0_compat; lra|]. apply (Rmult_lt_reg_r (br y c' + br c' b)); [lra|]. unfold Rdiv. rewrite Rmult_assoc, Rinv_l; lra. }
    set (c := along y b g). assert (Ec : br c c' = 0). { unfold c. replace (br (along y b g) c') with ((1 - g) * br y c' - g * br c' b) by (rewrite (br_anti k s c' b); unfold L_Lit2.br; unv; ring). unfold g. field. lra. }
    assert (E0 : area2 k c' c = 0) by (rewrite area2_swap; unfold L_Lit2.br in Ec; destruct Hs as [Es|Es]; rewrite Es in Ec; lra).
    assert (Nc' : k <> c') by (intros E; apply (Un_k V A k Enc GP z n' c' U (in_seg_on _ _ _ Ic')); auto).
    destruct (line_param k c' c Nc' E0) as (h & Eh).
    assert (Byc : br y c = g * br y b) by (unfold c; rewrite br_lin, br_self; ring).
    assert (Hh : 0 < h). { assert (br y c = h * br y c') by (rewrite Eh; apply br_ray). nra. }
    assert (Nyb : y <> b) by (intros E; rewrite E, br_self in Yb; lra).
    assert (Icab : in_seg a b c) by (apply on_sub; auto; [apply in_seg_on; auto|apply on_seg_r]).
    assert (Lc : lit c). { apply Z4; [apply in_seg_on; auto|nra|]. rewrite br_anti, Eh, br_ray. rewrite br_anti in C2. nra. }
    assert (h = 1). { apply (lit_unique A k c'); auto. rewrite <- Eh; auto. } subst h. rewrite along_1 in Eh.
    destruct (Un_only V A Enc a b z n' c Hab U Icab) as [[E _]|[E _]]; auto. { rewrite Eh. apply in_seg_on; auto. } rewrite E in Z1. lra.
  Qed.

  Lemma conseq : exists n x, Un z n /\ 0 < br z n /\ in_seg z n x /\ lit x /\ 0 < br y x /\
    forall w, In w V -> lit w -> 0 <= br y w -> 0 <= br w x -> w = z.
  Proof.
    pose proof cq_yb as Yb. pose proof cq_zb as Zb.
    destruct (cyc_from V z Hz) as [n0 Hn0]. assert (U0 : Un z n0) by (left; auto).
    destruct (near_lit V A k Enc GP s Hs z n0 U0 Lz (appear n0 U0)) as (n & x & U & Bn & Ix & Lx & Sx).
    assert (Lx1 : lit x) by (specialize (Lx 1 ltac:(lra)); rewrite along_1 in Lx; auto).
    assert (Bx : 0 < br z x) by (destruct Ix as (g & Hg & ->); rewrite br_lin, br_self; nra).
    assert (Hb : In b V) by apply (Un_V V A k Enc GP s Hs a b Hab).
    assert (Xb : 0 < br x b) by (rewrite br_anti; specialize (Sx b Hb Zb); lra).
    assert (Yx : 0 < br y x).
    { pose proof (br_pl k s y z x b) as P. assert (0 < br y z * br x b) by (apply Rmult_lt_0_compat; auto). assert (0 < br y b * br z x) by (apply Rmult_lt_0_compat; auto). assert (0 < br y x * br z b) by lra. nra. }
    exists n, x. repeat (split; [assumption|]). intros w Hw Lw W1 W2.
    destruct (Rtotal_order (br z w) 0) as [L|[L|L]].
    - exfalso. assert (Wz : 0 < br w z) by (rewrite br_anti; lra).
      assert (W3 : 0 < br y w).
      { destruct W1 as [|E]; auto. exfalso. assert (E0 : area2 k y w = 0) by (unfold L_Lit2.br in E; destruct Hs as [Es|Es]; rewrite Es in E; lra).
        assert (Nyk : k <> y) by (intros E'; apply (Un_k V A k Enc GP a b y Hab (in_seg_on _ _ _ Iy)); auto).
        destruct (line_param k y w Nyk E0) as (h & Eh). assert (Hh : br w x = h * br y x) by (rewrite (br_anti k s w x), Eh, br_ray, (br_anti k s x y); ring).
        assert (h <> 0). { intros ->. apply (vertex_not_k V A k Enc GP w Hw). rewrite Eh. apply along_0. }
        assert (0 < h) by nra. assert (h = 1). { apply (lit_unique A k y); auto. rewrite <- Eh; auto. }
        subst h. rewrite along_1 in Eh. apply (Un_in_V V A Enc a b y Hab Iy). rewrite <- Eh. auto. }
      assert (W4 : 0 <= br w b).
      { pose proof (br_pl k s y w z b) as P. assert (0 < br y w * br z b) by (apply Rmult_lt_0_compat; auto). assert (0 < br y b * br w z) by (apply Rmult_lt_0_compat; auto). assert (0 < br y z * br w b) by lra. nra. }
      pose proof (Z3 w Hw Lw W3 W4). lra.
    - symmetry. apply (gp_br V k GP s Hs); auto.
    - exfalso. specialize (Sx w Hw L). lra.
  Qed.
End Conseq.

Lemma enc_rot X : forall Y A, encloses (X ++ Y) A -> encloses (Y ++ X) A.
Proof.
  induction X as [|x X IH]; intros Y A H; [rewrite app_nil_r; auto|].
  replace (Y ++ x :: X) with ((Y ++ [x]) ++ X) by (rewrite <- app_assoc; auto). apply IH. rewrite app_assoc. apply enc_turn. exact H.
Qed.

(** [l'] is [l] begun at another place *)
Definition rot {B} (l l' : list B) : Prop := exists P Q, l = P ++ Q /\ l' = Q ++ P.
Lemma rot_in {B} (l l' : list B) x : rot l l' -> In x l <-> In x l'.
Proof. intros (P & Q & -> & ->). rewrite !in_app_iff. tauto. Qed.
Lemma rot_enc l l' A : rot l l' -> encloses l A -> encloses l' A.
Proof. intros (P & Q & -> & ->). apply enc_rot. Qed.
Lemma rot_sym {B} (l l' : list B) : rot l l' -> rot l' l.
Proof. intros (P & Q & -> & ->). exists Q, P. auto. Qed.
Lemma rot_trans {B} (l l' l'' : list B) : rot l l' -> rot l' l'' -> rot l l''.
Proof.
  intros (P & Q & -> & ->) (P' & Q' & E & ->). apply app_eq_app in E as (m & [[-> ->]|[-> ->]]).
  - exists (P ++ P'), m. rewrite <- !app_assoc. auto.
  - exists m, (Q' ++ Q). rewrite <- !app_assoc. auto.
Qed.
Lemma rot_edges {B} (l l' : list B) e : rot l l' -> In e (cyc_edges l) <-> In e (cyc_edges l').
Proof.
  assert (G : forall (P Q : list B), In e (cyc_edges (P ++ Q)) -> In e (cyc_edges (Q ++ P))).
  { induction P as [|x P IH]; intros Q H; [rewrite app_nil_r; auto|]. replace (Q ++ x :: P) with ((Q ++ [x]) ++ P) by (rewrite <- app_assoc; auto). apply IH. rewrite app_assoc. apply cyc_turn. exact H. }
  intros (P & Q & -> & ->). split; apply G.
Qed.

Section Next.
  Variables (T : list Pt) (A : region) (k b a y : Pt).
  Notation V := (b :: T).
  Hypothesis Enc : encloses V A.
  Hypothesis GP : forall v w, In v V -> In w V -> v <> w -> area2 k v w <> 0.
  Hypothesis Hab : Ed V a b.
  Hypothesis Iy : in_seg a b y.
  Notation lit := (lit A k).
  Hypothesis Ly : lit y.
  Let ND : NoDup V := proj1 (enc_ring V A Enc).
  Let s1 : 1 = 1 \/ 1 = -1 := or_introl eq_refl.
  Let s2 : -1 = 1 \/ -1 = -1 := or_intror eq_refl.

  Lemma nx_last : last T b = a.
  Proof. change (b :: T) with ([] ++ b :: T) in ND. rewrite (cyc_prev_unique [] T b a ND Hab), app_nil_r. auto. Qed.
  Lemma nx_pos : 0 < area2 k a b.
  Proof. eapply (lit_dir V A k Enc GP); eauto. Qed.
  Lemma nx_yb : 0 < area2 k y b.
  Proof. pose proof nx_pos. destruct Iy as (t & Ht & ->). replace (area2 k (along a b t) b) with ((1 - t) * area2 k a b) by (unv; ring). nra. Qed.
  Lemma nx_ay : 0 < area2 k a y.
  Proof. pose proof nx_pos. destruct Iy as (t & Ht & ->). replace (area2 k a (along a b t)) with (t * area2 k a b) by (unv; ring). nra. Qed.

  Section Fwd.
    Variables (z : Pt) (X Y : list Pt).
    Hypothesis EV : V = X ++ z :: Y.
    Hypothesis Lz : lit z.
    Hypothesis Z1 : 0 < br k 1 y z.
    Hypothesis Z2 : 0 <= br k 1 z b.
    Hypothesis Z3 : forall v, In v V -> lit v -> 0 < br k 1 y v -> 0 <= br k 1 v b -> 0 <= br k 1 z v.
    Hypothesis Z4 : forall c, on_seg a b c -> 0 <= br k 1 y c -> 0 < br k 1 c z -> lit c.
    Lemma fwd_dark w : In w X -> ~ lit w.
    Proof.
      intros Hw Lw. assert (Hz : In z V) by (rewrite EV; apply in_or_app; right; left; auto).
      assert (NX : X <> []) by (intros ->; destruct Hw).
      assert (NDz : NoDup (X ++ z :: Y)) by (rewrite <- EV; auto).
      assert (Nzb : z <> b). { intros ->. destruct X as [|x X']; [congruence|]. cbn in EV. injection EV as <- _. apply NoDup_remove_2 in NDz. apply NDz. left. auto. }
      assert (NY : Y <> []).
      { intros ->. pose proof nx_last as L. assert (z = a). { rewrite <- L. destruct X as [|x X']; [congruence|]. cbn in EV. injection EV as _ ->. rewrite last_last. auto. }
        subst z. unfold br in Z1. pose proof nx_ay. rewrite area2_swap in Z1. lra. }
      assert (U : Un V a b) by (left; auto). assert (Bab : 0 < br k 1 a b) by (unfold br; pose proof nx_pos; lra).
      destruct (conseq V A k Enc GP 1 s1 a b y z U Iy Ly Bab Hz Lz Z1 Z2 Z3 Z4 Nzb) as (n & x & Un & Bn & Ix & Lx & Yx & Only).
      assert (Hn : Ed V z n).
      { destruct Un as [|Un]; auto. exfalso. pose proof (lit_dir V A k Enc GP n z x Un (in_seg_sym _ _ _ Ix) Lx) as D. unfold br in Bn. rewrite area2_swap in D. lra. }
      assert (En : n = hd z Y). { unfold Ed in Hn. rewrite EV in Hn. rewrite (cyc_next_unique _ _ _ _ NDz Hn). destruct Y; [congruence|auto]. }
      assert (EV' : V = (X ++ [z]) ++ Y) by (rewrite <- app_assoc; auto).
      assert (Q : 0 <= area2 k y w /\ 0 <= area2 k w x).
      { apply (arc_vertex (X ++ [z]) Y A k z).
        - destruct X; discriminate.
        - auto.
        - rewrite <- EV'. auto.
        - intros v1 v2 H1 H2. rewrite <- EV' in H1, H2. auto.
        - pose proof nx_last as L. assert (El : last Y z = a). { rewrite <- L. destruct X as [|x0 X']; [congruence|]. cbn in EV. injection EV as _ ->. destruct Y as [|q Y' _] using rev_ind; [congruence|]. rewrite app_comm_cons, app_assoc, !last_last. auto. }
          rewrite El. replace (hd z (X ++ [z])) with b; auto. destruct X as [|x0 X']; [congruence|]. cbn in *. congruence.
        - rewrite last_last, <- En. auto.
        - auto.
        - auto.
        - unfold br in Yx. lra.
        - apply in_or_app. auto.
        - auto. }
      assert (w = z). { apply Only; auto; [rewrite EV; apply in_or_app; auto| |]; unfold br; lra. }
      subst w. apply NoDup_remove_2 in NDz. apply NDz. apply in_or_app. auto.
    Qed.
  End Fwd.
  Section Bwd.
    Variables (z : Pt) (X Y : list Pt).
    Hypothesis EV : V = X ++ z :: Y.
    Hypothesis Lz : lit z.
    Hypothesis Z1 : 0 < br k (-1) y z.
    Hypothesis Z2 : 0 <= br k (-1) z a.
    Hypothesis Z3 : forall v, In v V -> lit v -> 0 < br k (-1) y v -> 0 <= br k (-1) v a -> 0 <= br k (-1) z v.
    Hypothesis Z4 : forall c, on_seg b a c -> 0 <= br k (-1) y c -> 0 < br k (-1) c z -> lit c.
    Lemma bwd_dark w : In w Y -> ~ lit w.
    Proof.
      intros Hw Lw. assert (Hz : In z V) by (rewrite EV; apply in_or_app; right; left; auto).
      assert (NY : Y <> []) by (intros ->; destruct Hw).
      assert (NDz : NoDup (X ++ z :: Y)) by (rewrite <- EV; auto).
      assert (Nzb : z <> b). { intros ->. unfold br in Z1. pose proof nx_yb. lra. }
      assert (NX : X <> []). { intros ->. cbn in EV. injection EV as E _. auto. }
      assert (El : last Y z = a).
      { rewrite <- nx_last. destruct X as [|x0 X']; [congruence|]. cbn in EV. injection EV as _ ->. destruct Y as [|q Y' _] using rev_ind; [congruence|]. rewrite app_comm_cons, app_assoc, !last_last. auto. }
      assert (Nza : z <> a). { intros E. apply NoDup_remove_2 in NDz. apply NDz. apply in_or_app. right. rewrite E, <- El. apply last_in. auto. }
      assert (U : Un V b a) by (right; auto). assert (Bab : 0 < br k (-1) b a) by (unfold br; pose proof nx_pos; rewrite area2_swap; lra).
      destruct (conseq V A k Enc GP (-1) s2 b a y z U (in_seg_sym _ _ _ Iy) Ly Bab Hz Lz Z1 Z2 Z3 Z4 Nza) as (n & x & Un & Bn & Ix & Lx & Yx & Only).
      assert (Hn : Ed V n z).
      { destruct Un as [Un|]; auto. exfalso. pose proof (lit_dir V A k Enc GP z n x Un Ix Lx) as D. unfold br in Bn. lra. }
      assert (En : n = last X z). { unfold Ed in Hn. rewrite EV in Hn. rewrite (cyc_prev_unique _ _ _ _ NDz Hn). destruct X as [|q X' _] using rev_ind; [congruence|]. rewrite app_assoc, !last_last. auto. }
      assert (Re : rot V ((z :: Y) ++ X)) by (exists X, (z :: Y); auto).
      assert (Q : 0 <= area2 k x w /\ 0 <= area2 k w y).
      { apply (arc_vertex (z :: Y) X A k z).
        - discriminate.
        - auto.
        - eapply rot_enc; eauto.
        - intros v1 v2 H1 H2. rewrite <- (rot_in V) in H1, H2 by auto. auto.
        - rewrite <- En. cbn [hd]. apply in_seg_sym. auto.
        - rewrite last_cons, El. replace (hd z X) with b; auto. destruct X as [|x0 X']; [congruence|]. cbn in *. congruence.
        - auto.
        - auto.
        - unfold br in Yx. rewrite area2_swap. lra.
        - right. auto.
        - auto. }
      assert (w = z). { apply Only; auto; [rewrite EV; apply in_or_app; right; right; auto| |]; unfold br; rewrite area2_swap; lra. }
      subst w. apply NoDup_remove_2 in NDz. apply NDz. apply in_or_app. auto.
    Qed.
  End Bwd.
End Next.
