(** The edges of the vertex list that polygon_kernel_starshaped_hull returns for a single kernel point. *)
From Coq Require Import QArith Reals Lra Lia Psatz List Bool Arith ZArith Classical_Prop.
From Verif Require Import Num Spec M_Cg M_Motion M_Obstacle M_PolHull S_PolHull S_HullOne L_ConeRegion L_Geom L_Cg L_PolHull L_PolHull2 L_PolHull3 L_Ring L_Ring2 L_Wind L_Lit L_Lit2 L_Order L_Order2 L_Lit3 L_Lit4 L_Lit5 L_Lit6 L_PolHull4 L_PolHull5.
Import ListNotations.
Open Scope R_scope.

(** ** Edges of a ring put together from blocks *)
Section Blocks.
  Context {B C : Type} (f : C -> list B) (d : B).

  Lemma split_blocks l : (forall c, In c l -> f c <> []) -> forall X Y x y, concat (map f l) = X ++ x :: y :: Y ->
    (exists c X' Y', In c l /\ f c = X' ++ x :: y :: Y') \/ (exists P Q c c', l = P ++ c :: c' :: Q /\ last (f c) d = x /\ hd d (f c') = y).
  Proof.
    induction l as [|c l IH]; intros Ne X Y x y E; cbn [map concat] in E. { destruct X; discriminate. }
    assert (Nl : forall c, In c l -> f c <> []) by (intros c' H; apply Ne; right; auto).
    destruct (app_eq_app _ _ _ _ E) as (Z & [[E1 E2]|[E1 E2]]).
    - destruct Z as [|z Z]. { rewrite app_nil_r in E1. cbn in E2. destruct (IH Nl [] Y x y) as [(c0 & X' & Y' & H1 & H2)|(P & Q & c1 & c2 & H1 & H2 & H3)]; [auto| |].
        - left. exists c0, X', Y'. split; auto. right; auto.
        - right. exists (c :: P), Q, c1, c2. subst l. auto. }
      cbn in E2. injection E2 as <- E2. destruct Z as [|z Z].
      + right. destruct l as [|c' l]; [discriminate|]. exists [], l, c, c'. rewrite E1, last_last. repeat split; auto. assert (N : f c' <> []) by (apply Nl; left; auto). cbn in E2. destruct (f c'); [congruence|]. cbn in *. congruence.
      + cbn in E2. injection E2 as <- E2. left. exists c, X, Z. split; [left; auto|]. rewrite E1. auto.
    - destruct (IH Nl Z Y x y E2) as [(c0 & X' & Y' & H1 & H2)|(P & Q & c1 & c2 & H1 & H2 & H3)].
      + left. exists c0, X', Y'. split; auto. right; auto.
      + right. exists (c :: P), Q, c1, c2. subst l. auto.
  Qed.
  Lemma last_blocks l c : f c <> [] -> last (concat (map f (l ++ [c]))) d = last (f c) d.
  Proof. intros N. rewrite map_app, concat_app. cbn. rewrite app_nil_r. destruct (exists_last_or_nil (f c)) as [|(m & z & ->)]; [congruence|]. rewrite app_assoc, !last_last. auto. Qed.
  Lemma blocks_edges l x y : (forall c, In c l -> f c <> []) -> In (x, y) (cyc_edges (concat (map f l))) <->
    (exists c X' Y', In c l /\ f c = X' ++ x :: y :: Y') \/ (exists c c', In (c, c') (cyc_edges l) /\ last (f c) d = x /\ hd d (f c') = y).
  Proof.
    intros Ne. split.
    - intros H. destruct (cyc_cases _ _ _ H) as [(X & Y & E)|(t & E & L)].
      + destruct (split_blocks l Ne X Y x y E) as [H1|(P & Q & c & c' & -> & H1 & H2)]; auto. right. exists c, c'. split; auto. apply cyc_mid.
      + right. destruct l as [|c l]; [discriminate|]. assert (Nc : f c <> []) by (apply Ne; left; auto).
        assert (Hy : hd d (f c) = y) by (cbn in E; destruct (f c); [congruence|]; cbn in *; congruence).
        exists (last l c), c. split; [apply cyc_last|]. split; auto. rewrite <- L, <- (last_cons t y d), <- E.
        destruct (exists_last_or_nil l) as [->|(m & z & ->)].
        * cbn. rewrite app_nil_r. auto.
        * rewrite last_last. change (c :: m ++ [z]) with ((c :: m) ++ [z]). rewrite last_blocks; auto. apply Ne. right. apply in_or_app. right; left; auto.
    - intros [(c & X & Y & Hc & E)|(c & c' & Hc & <- & <-)].
      + apply in_split in Hc as (P & Q & ->). rewrite map_app, concat_app. cbn [map concat]. rewrite E, <- app_assoc. cbn [app]. rewrite app_assoc. apply cyc_mid.
      + assert (N1 : f c <> []) by apply Ne, (cyc_in _ _ _ Hc). assert (N2 : f c' <> []) by apply Ne, (cyc_in _ _ _ Hc).
        destruct (f c') as [|y' b'] eqn:E2; [congruence|]. cbn [hd].
        destruct (cyc_cases _ _ _ Hc) as [(X & Y & ->)|(t & -> & L)].
        * destruct (exists_last_or_nil (f c)) as [|(m & z & E)]; [congruence|]. rewrite E, last_last, map_app, concat_app. cbn [map concat]. rewrite E, E2, <- app_assoc. cbn [app]. rewrite app_assoc. apply cyc_mid.
        * assert (Q : last (concat (map f (c' :: t))) d = last (f c) d).
          { destruct (exists_last_or_nil t) as [->|(m & z & ->)]; [cbn in *; subst; rewrite app_nil_r; auto|]. rewrite last_last in L. subst z. change (c' :: m ++ [c]) with ((c' :: m) ++ [c]). apply last_blocks. auto. }
          rewrite <- Q. cbn [map concat]. rewrite E2. cbn [app]. rewrite last_cons. apply cyc_last.
  Qed.
End Blocks.

Lemma cyc_from2 {B} (l : list B) a b : In a l -> In b l -> a <> b -> exists c, In (a, c) (cyc_edges l) /\ exists X Y, (l = X ++ a :: c :: Y) \/ (l = c :: X ++ [a]).
Proof.
  intros Ha Hb N. destruct (cyc_from l a Ha) as [c Hc]. exists c. split; auto. destruct (cyc_cases _ _ _ Hc) as [(X & Y & ->)|(t & -> & L)]; [exists X, Y; auto|].
  destruct (exists_last_or_nil t) as [->|(m & z & ->)].
  - cbn in *. destruct Ha as [<-|[]], Hb as [<-|[]]. congruence.
  - rewrite last_last in L. subst z. exists m, []. auto.
Qed.

Lemma nodup_fun {B C} (l : list (B * C)) v b b' : NoDup (map fst l) -> In (v, b) l -> In (v, b') l -> b = b'.
Proof.
  induction l as [|[w c] l IH]; intros ND H H'; [destruct H|]. cbn in ND. inversion ND as [|? ? N1 N2]. subst. destruct H as [H|H], H' as [H'|H'].
  - congruence.
  - injection H as -> ->. exfalso. apply N1. apply (in_map fst) in H'. auto.
  - injection H' as -> ->. exfalso. apply N1. apply (in_map fst) in H. auto.
  - auto.
Qed.

Section Run.
  Variables (V : list Pt) (A : region) (k : Pt).
  Hypothesis Enc : encloses V A.
  Hypothesis GP : forall v w, In v V -> In w V -> v <> w -> area2 k v w <> 0.
  Notation Ed := (Ed V).
  Notation Un := (Un V).
  Notation lit := (lit A k).
  Notation run := (run V A k).
  Notation blk := (blk V A k).

  Lemma sides v : In v V -> all_side V k 1 v -> ~ all_side V k (-1) v.
  Proof. intros Hv S1 S2. destruct (cyc_from V v Hv) as [w Hw]. assert (U : Un v w) by (left; auto). specialize (S1 w U). specialize (S2 w U). rewrite br1 in S1. rewrite br2, area2_swap in S2. lra. Qed.

  Lemma run_split X : forall i vs v B Y i', run i vs (X ++ (v, B) :: Y) i' ->
    exists vs1 vs2 j j', vs = vs1 ++ v :: vs2 /\ lit v /\ run i vs1 X j /\ blk j j' v B /\ run j' vs2 Y i'.
  Proof.
    intros i vs v B Y i' Rn. remember (X ++ (v, B) :: Y) as bs eqn:E. revert X E. induction Rn as [i|i w vs bs i' Nl Rn IH|i i1 i' w B' vs bs Lw Hb Rn IH]; intros X E.
    - destruct X; discriminate.
    - destruct (IH X E) as (vs1 & vs2 & j & j' & -> & L & R1 & Hb & R2). exists (w :: vs1), vs2, j, j'. repeat split; auto; try apply L. constructor; auto.
    - destruct X as [|x X]; cbn in E.
      + injection E as -> -> ->. exists [], vs, i, i1. repeat split; auto; try apply Lw. constructor.
      + injection E as <- E2. destruct (IH X E2) as (vs1 & vs2 & j & j' & -> & L & R1 & Hb' & R2). exists (w :: vs1), vs2, j, j'. repeat split; auto; try apply L. eapply run_lit; eauto.
  Qed.
  Lemma run_lits i vs bs i' : run i vs bs i' -> forall v, In v (map fst bs) <-> In v vs /\ lit v.
  Proof.
    intros Rn. induction Rn as [i|i w vs bs i' Nl Rn IH|i i1 i' w B' vs bs Lw Hb Rn IH]; intros v; cbn [map fst In].
    - tauto.
    - rewrite IH. split; [tauto|]. intros [[<-|H] L]; tauto.
    - rewrite IH. split; [intros [<-|H]; tauto|]. tauto.
  Qed.
  Lemma run_nodup i vs bs i' : run i vs bs i' -> NoDup vs -> NoDup (map fst bs).
  Proof.
    intros Rn. induction Rn as [i|i w vs bs i' Nl Rn IH|i i1 i' w B' vs bs Lw Hb Rn IH]; intros ND; cbn [map fst]; [constructor| |]; inversion ND; subst; auto.
    constructor; auto. rewrite (run_lits _ _ _ _ Rn). tauto.
  Qed.
  Lemma run_dark i vs i' : run i vs [] i' -> i' = i /\ forall w, In w vs -> ~ lit w.
  Proof.
    intros Rn. remember [] as bs eqn:E. induction Rn as [i|i w vs bs i' Nl Rn IH|]; [split; auto; intros w []| |discriminate].
    destruct (IH E) as [-> H]. split; auto. intros x [<-|Hx]; auto.
  Qed.
  (** vertices whose segment to [k] avoids the polygon *)
  Definition open_end (v : Pt) : Prop := bare A k v /\ (all_side V k 1 v \/ all_side V k (-1) v).
  Lemma blk_inc i i' v B : In v V -> blk i i' v B -> i' = true <-> i = true \/ open_end v.
  Proof.
    intros Hv [(-> & -> & (n1 & U1 & S1) & (n2 & U2 & S2))|[(u & Fu & -> & _)|(Hb & -> & S1)]].
    - split; auto. intros [|[_ [Sa|Sa]]]; auto; exfalso; [specialize (Sa n1 U1); lra|specialize (Sa n2 U2); rewrite br1 in S2; rewrite br2, area2_swap in Sa; lra].
    - split; auto. intros [|[Hb _]]; auto. exfalso. eapply foot_bare; eauto.
    - split; auto. intros _. right. split; auto. tauto.
  Qed.
  Lemma run_inc i vs bs i' : run i vs bs i' -> (forall v, In v vs -> In v V) -> i' = true <-> i = true \/ exists v, In v (map fst bs) /\ open_end v.
  Proof.
    intros Rn. induction Rn as [i|i w vs bs i' Nl Rn IH|i i1 i' w B' vs bs Lw Hb Rn IH]; intros HV.
    - split; auto. intros [|(v & [] & _)]; auto.
    - apply IH. intros; apply HV; right; auto.
    - rewrite IH by (intros; apply HV; right; auto). rewrite (blk_inc _ _ _ _ (HV w (or_introl eq_refl)) Hb). split.
      + intros [[|]|(v & H1 & H2)]; auto; right; [exists w|exists v]; cbn; auto.
      + intros [|(v & [<-|H1] & H2)]; auto. right. exists v. auto.
  Qed.

  Variables (ws : list Pt) (bs : list (Pt * list Pt)) (i : bool).
  Hypothesis Rw : rot V ws.
  Hypothesis Rn : run false ws bs i.
  Let NDw : NoDup ws := proj1 (enc_ring ws A (rot_enc _ _ _ Rw Enc)).
  Let ND : NoDup (map fst bs) := run_nodup _ _ _ _ Rn NDw.
  Let L := concat (map snd bs).

  Lemma ws_V v : In v ws <-> In v V.
  Proof. symmetry. apply rot_in. auto. Qed.
  Lemma bs_lits v : In v (map fst bs) <-> In v V /\ lit v.
  Proof. rewrite (run_lits _ _ _ _ Rn), ws_V. tauto. Qed.
  Lemma bs_block v B : In (v, B) bs -> In v V /\ lit v /\ exists j j', blk j j' v B.
  Proof.
    intros H. apply in_split in H as (X & Y & E). pose proof Rn as Rn'. rewrite E in Rn'. destruct (run_split _ _ _ _ _ _ _ Rn') as (vs1 & vs2 & j & j' & Ew & Lv & _ & Hb & _).
    split; [apply ws_V; rewrite Ew; apply in_or_app; right; left; auto|]. split; auto. exists j, j'. auto.
  Qed.
  Lemma blk_ne j j' v B : blk j j' v B -> B <> [] /\ In v B.
  Proof.
    intros [(-> & _)|[(u & _ & _ & [[_ ->]|[_ ->]])|(_ & _ & [[_ ->]|[_ ->]])]]; try destruct j; (split; [discriminate|cbn; auto]).
  Qed.
  Lemma bs_ne c : In c bs -> snd c <> [].
  Proof. destruct c as [v B]. intros H. destruct (bs_block v B H) as (_ & _ & j & j' & Hb). apply (blk_ne _ _ _ _ Hb). Qed.
  Lemma bs_fun v B B' : In (v, B) bs -> In (v, B') bs -> B = B'.
  Proof. apply nodup_fun. exact ND. Qed.
  Lemma bs_get v : In v V -> lit v -> exists B, In (v, B) bs.
  Proof. intros Hv Lv. destruct (proj1 (in_map_iff fst bs v) (proj2 (bs_lits v) (conj Hv Lv))) as ([w B] & <- & H). exists B. auto. Qed.

  Lemma cyc_nextv v B z B' : In ((v, B), (z, B')) (cyc_edges bs) -> v <> z -> nextv V A k v z.
  Proof.
    intros H N. destruct (cyc_cases _ _ _ H) as [(X & Y & E)|(t & E & La)].
    - pose proof Rn as Rn'. rewrite E in Rn'. destruct (run_split _ _ _ _ _ _ _ Rn') as (vs1 & vs2 & j & j' & Ew & Lv & _ & _ & Rn2).
      destruct (run_split [] _ _ _ _ _ _ Rn2) as (vs3 & vs4 & j2 & j3 & Ew2 & Lz & Rn3 & _ & _). destruct (run_dark _ _ _ Rn3) as [_ Dk].
      exists vs3, (vs4 ++ vs1). split; auto. apply (rot_trans V ws); auto. exists vs1, (v :: vs2). split; auto. rewrite Ew2. cbn [app]. rewrite <- app_assoc. auto.
    - destruct (exists_last_or_nil t) as [->|(m & y & ->)]; [cbn in La; congruence|]. rewrite last_last in La. subst y.
      pose proof Rn as Rn'. rewrite E in Rn'. destruct (run_split [] _ _ _ _ _ _ Rn') as (vs1 & vs2 & j & j' & Ew & Lz & Rn1 & _ & Rn2).
      destruct (run_split _ _ _ _ _ _ _ Rn2) as (vs3 & vs4 & j2 & j3 & Ew2 & Lv & _ & _ & Rn3). destruct (run_dark _ _ _ Rn1) as [_ D1]. destruct (run_dark _ _ _ Rn3) as [_ D2].
      exists (vs4 ++ vs1), vs3. split. { apply (rot_trans V ws); auto. exists (vs1 ++ z :: vs3), (v :: vs4). rewrite Ew, Ew2. rewrite <- !app_assoc. cbn [app]. rewrite <- ?app_assoc. auto. }
      intros w Hw. apply in_app_or in Hw as [Hw|Hw]; auto.
  Qed.
  Lemma port_last v B x : In (v, B) bs -> port V A k (-1) v x -> last B k = x.
  Proof.
    intros H P. destruct (bs_block v B H) as (Hv & _ & j & j' & Hb). destruct P as [[-> (n & Un & Sn)]|[Sa Fx]].
    - rewrite br2, area2_swap in Sn. destruct Hb as [(-> & _)|[(u & _ & _ & [[_ ->]|[Sb _]])|(_ & _ & [[_ ->]|[Sb _]])]]; auto; try (destruct j; reflexivity); specialize (Sb n Un); rewrite br2, area2_swap in Sb; lra.
    - destruct Hb as [(-> & _ & _ & (n & Un & Sn))|[(u & Fu & _ & [[Sb _]|[_ ->]])|(Hb & _)]].
      + specialize (Sa n Un). rewrite br1 in Sn. rewrite br2, area2_swap in Sa. lra.
      + exfalso. apply (sides v); auto.
      + cbn. eapply foot_unique; eauto.
      + exfalso. eapply foot_bare; eauto.
  Qed.
  Lemma port_hd v B x : In (v, B) bs -> port V A k 1 v x -> hd k B = x.
  Proof.
    intros H P. destruct (bs_block v B H) as (Hv & _ & j & j' & Hb). destruct P as [[-> (n & Un & Sn)]|[Sa Fx]].
    - rewrite br1 in Sn. destruct Hb as [(-> & _)|[(u & _ & _ & [[Sb _]|[_ ->]])|(_ & _ & [[Sb _]|[_ ->]])]]; auto; try (destruct j; reflexivity); specialize (Sb n Un); rewrite br1 in Sb; lra.
    - destruct Hb as [(-> & _ & (n & Un & Sn) & _)|[(u & Fu & _ & [[_ ->]|[Sb _]])|(Hb & _)]].
      + specialize (Sa n Un). lra.
      + cbn. eapply foot_unique; eauto.
      + exfalso. apply (sides v); auto.
      + exfalso. eapply foot_bare; eauto.
  Qed.
  (** two different visible vertices *)
  Lemma two_lit : exists v z, In v V /\ In z V /\ lit v /\ lit z /\ v <> z.
  Proof.
    destruct (some_span V A k Enc GP) as (v & z & a & b & x & x' & Sp). exists v, z. repeat split; try apply Sp. intros ->. pose proof (sp_pos _ _ _ _ _ _ _ _ _ Sp) as P. replace (area2 k z z) with 0 in P by (unv; ring). lra.
  Qed.
  Lemma pair_ne v B z B' : In ((v, B), (z, B')) (cyc_edges bs) -> v <> z.
  Proof.
    intros H E. destruct two_lit as (v1 & v2 & H1 & H2 & L1 & L2 & N).
    destruct (bs_get v1 H1 L1) as [B1 G1]. destruct (bs_get v2 H2 L2) as [B2 G2].
    subst z. destruct (cyc_cases _ _ _ H) as [(X & Y & Eb)|(t & Eb & La)].
    - clear - ND Eb. rewrite Eb, map_app in ND. cbn in ND. apply NoDup_remove_2 in ND. apply ND. apply in_or_app. right. left. auto.
    - destruct (exists_last_or_nil t) as [->|(m & y & ->)].
      + rewrite Eb in G1, G2. destruct G1 as [G1|[]], G2 as [G2|[]]. congruence.
      + rewrite last_last in La. subst y. clear - ND Eb. rewrite Eb in ND. cbn in ND. apply NoDup_cons_iff in ND as [ND _]. apply ND. rewrite map_app. apply in_or_app. right. left. auto.
  Qed.
  Lemma nextv_pair v z : In v V -> lit v -> In z V -> lit z -> nextv V A k v z -> exists B B', In ((v, B), (z, B')) (cyc_edges bs).
  Proof.
    intros Hv Lv Hz Lz Nx. destruct (bs_get v Hv Lv) as [B HB]. destruct (cyc_from bs (v, B) HB) as [[z' B'] Hc]. exists B, B'.
    destruct (bs_block z' B') as (Hz' & Lz' & _). { apply (cyc_in _ _ _ Hc). }
    rewrite (nextv_det V A k Enc v z z'); auto. apply (cyc_nextv v B z' B'); auto. eapply pair_ne; eauto.
  Qed.
  Lemma open_only v z w : In v V -> In z V -> lit v -> lit z -> nextv V A k v z -> all_side V k (-1) v -> bare A k v -> In w V -> lit w -> open_end w -> w = v \/ w = z.
  Proof.
    intros Hv Hz Lv Lz Nx S1 B1 Hw Lw [Bw [Sw|Sw]]; [right|left; apply (opening_unique V A k Enc GP); auto].
    (* the visible vertex before w *)
    destruct (bs_get w Hw Lw) as [B HB]. destruct (cyc_to bs (w, B) HB) as [[v' B'] Hc].
    destruct (bs_block v' B') as (Hv' & Lv' & _). { apply (cyc_in _ _ _ Hc). }
    assert (Nx' : nextv V A k v' w) by (eapply cyc_nextv; eauto; eapply pair_ne; eauto).
    destruct (nextv_cases V A k Enc GP v' w Nx' Lv' Lw) as [(a & b & x & x' & Sp)|(S' & B'' & _ & _)].
    - exfalso. destruct (sp_pz _ _ _ _ _ _ _ _ _ Sp) as [[_ (n & Un & Sn)]|[_ Fw]]; [specialize (Sw n Un); lra|eapply foot_bare; eauto].
    - assert (v' = v) by (apply (opening_unique V A k Enc GP); auto). subst v'. apply (nextv_det V A k Enc v); auto.
  Qed.
  Lemma opening_k v B z B' : In (v, B) bs -> In (z, B') bs -> v <> z -> nextv V A k v z -> all_side V k (-1) v -> bare A k v -> all_side V k 1 z -> bare A k z -> last B k = k \/ hd k B' = k.
  Proof.
    intros Hv Hz Nvz Nx S1 B1 S2 B2. destruct (bs_block v B Hv) as (Vv & Lv & _). destruct (bs_block z B' Hz) as (Vz & Lz & _).
    assert (First : forall c X Y w D, bs = X ++ (w, D) :: Y -> c <> w -> (forall y, In y V -> lit y -> open_end y -> y = w \/ y = c) -> open_end w -> ~ In c (map fst X) ->
      exists j', blk false j' w D).
    { intros c X Y w D E Nc On Ow Ni. pose proof Rn as Rn'. rewrite E in Rn'. destruct (run_split _ _ _ _ _ _ _ Rn') as (vs1 & vs2 & j & j' & Ew & Lw & Rn1 & Hb & _). exists j'.
      destruct j; auto. exfalso. assert (HV1 : forall y, In y vs1 -> In y V) by (intros y Hy; apply ws_V; rewrite Ew; apply in_or_app; auto).
      destruct (proj1 (run_inc _ _ _ _ Rn1 HV1) eq_refl) as [|(y & Hy & Oy)]; [discriminate|].
      destruct (proj1 (run_lits _ _ _ _ Rn1 y) Hy) as [Iy Ly]. destruct (On y) as [->| ->]; auto.
      clear - ND E Hy. rewrite E, map_app in ND. cbn in ND. apply NoDup_remove_2 in ND. apply ND. apply in_or_app. auto. }
    assert (On : forall y, In y V -> lit y -> open_end y -> y = v \/ y = z) by (intros; apply open_only; auto).
    assert (Ov : open_end v) by (split; auto). assert (Oz : open_end z) by (split; auto).
    destruct (in_split _ _ Hv) as (X & Y & E). destruct (classic (In z (map fst X))) as [Hi|Hi].
    - right. apply in_map_iff in Hi as ([z' D] & Ez & Hi). cbn in Ez. subst z'. assert (D = B'). { apply (bs_fun z); auto. rewrite E. apply in_or_app; auto. } subst D.
      destruct (in_split _ _ Hi) as (X1 & X2 & E1). destruct (First v X1 (X2 ++ (v, B) :: Y) z B') as (j' & Hb); auto.
      { rewrite E, E1, <- app_assoc. auto. } { intros y H1 H2 H3. destruct (On y); auto. }
      { intros Q. clear - ND E E1 Q. rewrite E, map_app in ND. cbn in ND. apply NoDup_remove_2 in ND. apply ND. apply in_or_app. left. rewrite E1, map_app. apply in_or_app. auto. }
      destruct Hb as [(_ & _ & (n & Un & Sn) & _)|[(u & Fu & _)|(_ & _ & [[_ ->]|[Sb _]])]]; auto; exfalso; [specialize (S2 n Un); lra|eapply foot_bare; eauto|apply (sides z); auto].
    - left. destruct (First z X Y v B) as (j' & Hb); auto.
      destruct Hb as [(_ & _ & _ & (n & Un & Sn))|[(u & Fu & _)|(_ & _ & [[Sb _]|[_ ->]])]]; auto; exfalso; [specialize (S1 n Un); rewrite br1 in Sn; rewrite br2, area2_swap in S1; lra|eapply foot_bare; eauto|apply (sides v); auto].
  Qed.

  (** the edges of the list *)
  Inductive edge_kind (x y : Pt) : Prop :=
  | ek_ray v : In v V -> lit v -> on_seg k v x -> on_seg k v y -> edge_kind x y
  | ek_span v z a b : spans V A k v z a b x y -> edge_kind x y.
  Lemma edges_kind x y : In (x, y) (cyc_edges L) -> edge_kind x y.
  Proof.
    intros H. apply (blocks_edges snd k) in H; [|apply bs_ne]. destruct H as [([v B] & X & Y & Hb & E)|([v B] & [z B'] & Hc & <- & <-)].
    - cbn in E. destruct (bs_block v B Hb) as (Hv & Lv & j & j' & Bl). assert (All : forall p, In p B -> on_seg k v p).
      { assert (Fo : forall u, foot A k v u -> on_seg k v u) by (intros u (c & Hc & -> & _); exists c; split; auto; lra). assert (Kk : on_seg k v k) by apply on_seg_l. assert (Kv : on_seg k v v) by apply on_seg_r.
        intros p Hp. destruct Bl as [(-> & _)|[(u & Fu & _ & [[_ ->]|[_ ->]])|(_ & _ & [[_ ->]|[_ ->]])]]; try destruct j; repeat (destruct Hp as [<-|Hp]; auto); destruct Hp. }
      apply (ek_ray x y v); auto; apply All; rewrite E; apply in_or_app; right; cbn; auto.
    - cbn [snd]. destruct (cyc_in _ _ _ Hc) as [H1 H2]. pose proof (pair_ne _ _ _ _ Hc) as Nvz. pose proof (cyc_nextv _ _ _ _ Hc Nvz) as Nx.
      destruct (bs_block v B H1) as (Hv & Lv & j & j' & Bl). destruct (bs_block z B' H2) as (Hz & Lz & _).
      destruct (nextv_cases V A k Enc GP v z Nx Lv Lz) as [(a & b & x & x' & Sp)|(S1 & B1 & S2 & B2)].
      + rewrite (port_last v B x), (port_hd z B' x'); auto; try apply Sp. eapply ek_span; eauto.
      + destruct (opening_k v B z B') as [->| ->]; auto.
        * apply (ek_ray _ _ z); auto. { apply on_seg_l. } destruct (bs_block z B' H2) as (_ & _ & j2 & j2' & Bz).
          destruct Bz as [(-> & _)|[(u & Fu & _)|(_ & _ & [[_ ->]|[Sb _]])]]; [apply on_seg_r|exfalso; eapply foot_bare; eauto|destruct j2; [apply on_seg_r|apply on_seg_l]|exfalso; apply (sides z); auto].
        * apply (ek_ray _ _ v); auto. 2:{ apply on_seg_l. }
          destruct Bl as [(-> & _)|[(u & Fu & _)|(_ & _ & [[Sb _]|[_ ->]])]]; [apply on_seg_r|exfalso; eapply foot_bare; eauto|exfalso; apply (sides v); auto|destruct j; [apply on_seg_r|apply on_seg_l]].
  Qed.
  Lemma spans_edge v z a b x x' : spans V A k v z a b x x' -> In (x, x') (cyc_edges L).
  Proof.
    intros Sp. destruct (nextv_pair v z) as (B & B' & Hc); try apply Sp. destruct (cyc_in _ _ _ Hc) as [H1 H2]. apply (blocks_edges snd k); [apply bs_ne|]. right. exists (v, B), (z, B'). split; auto. cbn [snd].
    split; [apply (port_last v B x)|apply (port_hd z B' x')]; auto; apply Sp.
  Qed.
  Lemma vertex_in v : In v V -> lit v -> In v L.
  Proof.
    intros Hv Lv. destruct (bs_get v Hv Lv) as [B HB]. destruct (bs_block v B HB) as (_ & _ & j & j' & Bl). unfold L. apply in_concat. exists B. split; [apply (in_map snd) in HB; auto|]. apply (blk_ne _ _ _ _ Bl).
  Qed.
  Lemma span_area v z a b x x' : spans V A k v z a b x x' -> 0 < area2 k x x'.
  Proof.
    intros Sp. destruct (sp_rx _ _ _ _ _ _ _ _ _ Sp) as (c & Hc & ->). destruct (sp_rx' _ _ _ _ _ _ _ _ _ Sp) as (c' & Hc' & ->). pose proof (sp_pos _ _ _ _ _ _ _ _ _ Sp).
    replace (area2 k (along k v c) (along k z c')) with (c * c' * area2 k v z) by (unv; ring). apply Rmult_lt_0_compat; auto. apply Rmult_lt_0_compat; auto.
  Qed.
  Lemma edges_area x y : In (x, y) (cyc_edges L) -> 0 <= area2 k x y.
  Proof.
    intros H. destruct (edges_kind x y H) as [v Hv Lv (c & Hc & ->) (c' & Hc' & ->)|v z a b Sp].
    - replace (area2 k (along k v c) (along k v c')) with 0 by (unv; ring). lra.
    - apply Rlt_le. eapply span_area; eauto.
  Qed.
  Lemma long_list : (3 <= length L)%nat.
  Proof.
    destruct two_lit as (v & z & Hv & Hz & Lv & Lz & N). pose proof (vertex_in v Hv Lv) as I1. pose proof (vertex_in z Hz Lz) as I2. pose proof edges_area as EA.
    destruct L as [|p [|q [|r t]]]; cbn [length]; try lia; exfalso.
    - destruct I1.
    - destruct I1 as [<-|[]], I2 as [<-|[]]. congruence.
    - assert (A1 : 0 <= area2 k p q) by (apply EA; left; auto). assert (A2 : 0 <= area2 k q p) by (apply EA; right; left; auto). rewrite area2_swap in A2.
      apply (GP v z); auto. destruct I1 as [<-|[<-|[]]], I2 as [<-|[<-|[]]]; try congruence; try lra. rewrite area2_swap. lra.
  Qed.

  (** ** the region of the list *)
  Lemma tri_seg p x y : in_hull [k; x; y] p <-> exists q, on_seg x y q /\ on_seg k q p.
  Proof.
    clear. rewrite hull3. split.
    - intros (al & be & Ha & Hb & Hs & ->). destruct (Req_dec (al + be) 0) as [E|N].
      + exists x. split; [apply on_seg_l|]. exists 0. split; [lra|]. assert (al = 0) by lra. assert (be = 0) by lra. subst. unv. apply pair_eq; ring.
      + exists (along x y (be / (al + be))). split.
        * exists (be / (al + be)). split; auto. assert (be / (al + be) * (al + be) = be) by (field; auto). split; nra.
        * exists (al + be). split; [lra|]. unv. apply pair_eq; field; auto.
    - intros (q & (t & Ht & ->) & (r & Hr & ->)). exists (r * (1 - t)), (r * t). repeat split; try nra. unv. apply pair_eq; ring.
  Qed.
  Lemma fan_in p : fan k L p -> star_of k A p.
  Proof.
    intros (x & y & H & Hp). apply tri_seg in Hp as (q & Hq & Hp). destruct (edges_kind x y H) as [v Hv Lv (c & Hc & ->) (c' & Hc' & ->)|v z a b Sp].
    - exists v. split; [apply Lv|]. destruct Hq as (t & Ht & ->), Hp as (r & Hr & ->). exists (r * (c + t * (c' - c))).
      assert (0 <= c + t * (c' - c) <= 1) by (split; nra). split; [split; nra|]. unv. apply pair_eq; ring.
    - exists q. split; auto. apply (r_on _ _ (proj1 (proj2 (proj2 (enc_ring V A Enc))))). exists a, b. split; [apply Sp|].
      destruct (sp_x _ _ _ _ _ _ _ _ _ Sp) as (c & Hc & ->), (sp_x' _ _ _ _ _ _ _ _ _ Sp) as (c' & Hc' & ->), Hq as (t & Ht & ->). exists (c + t * (c' - c)). split; [split; nra|]. unv. apply pair_eq; ring.
  Qed.
  Lemma span_on v z a b x x' y : spans V A k v z a b x x' -> in_seg a b y -> 0 < area2 k v y -> 0 < area2 k y z -> on_seg x x' y.
  Proof.
    intros Sp (t & Ht & ->) P1 P2. destruct (sp_x _ _ _ _ _ _ _ _ _ Sp) as (c & Hc & Ex), (sp_x' _ _ _ _ _ _ _ _ _ Sp) as (c' & Hc' & Ex').
    destruct (sp_rx _ _ _ _ _ _ _ _ _ Sp) as (r & Hr & Er), (sp_rx' _ _ _ _ _ _ _ _ _ Sp) as (r' & Hr' & Er'). pose proof (span_area _ _ _ _ _ _ Sp) as P0.
    assert (Q1 : 0 < area2 k x (along a b t)) by (rewrite Er; replace (area2 k (along k v r) (along a b t)) with (r * area2 k v (along a b t)) by (unv; ring); nra).
    assert (Q2 : 0 < area2 k (along a b t) x') by (rewrite Er'; replace (area2 k (along a b t) (along k z r')) with (r' * area2 k (along a b t) z) by (unv; ring); nra).
    rewrite Ex, Ex' in *. clear - P0 Q1 Q2.
    replace (area2 k (along a b c) (along a b c')) with ((c' - c) * area2 k a b) in P0 by (unv; ring).
    replace (area2 k (along a b c) (along a b t)) with ((t - c) * area2 k a b) in Q1 by (unv; ring).
    replace (area2 k (along a b t) (along a b c')) with ((c' - t) * area2 k a b) in Q2 by (unv; ring).
    set (w := area2 k a b) in *. assert (Nc : c' - c <> 0) by (intros E; rewrite E in P0; lra).
    assert (0 <= (t - c) / (c' - c) <= 1).
    { assert (E : (t - c) / (c' - c) * (c' - c) = t - c) by (field; auto). set (z := (t - c) / (c' - c)) in *. split; nra. }
    exists ((t - c) / (c' - c)). split; auto. unv. apply pair_eq; field; auto.
  Qed.
  Lemma fan_all p : star_of k A p -> fan k L p.
  Proof.
    intros (a & Ha & Hp). assert (Kin : forall x y, in_hull [k; x; y] k) by (intros; apply tri_seg; exists x; split; apply on_seg_l).
    destruct (classic (a = k)) as [->|Nk].
    { apply on_seg_same in Hp. subst p. destruct (some_span V A k Enc GP) as (v & z & a & b & x & x' & Sp). exists x, x'. split; [eapply spans_edge; eauto|auto]. }
    destruct (outermost V A k Enc GP a Ha Nk) as (s & Hs & Ly). set (y := along k a s) in *.
    assert (Py : on_seg k y p). { destruct Hp as (t & Ht & ->). exists (t / s). assert (t / s * s = t) by (field; lra). split; [split; nra|]. unfold y. unv. apply pair_eq; field; lra. }
    assert (Ny : y <> k). { intros E. assert (s = 0); [|lra]. apply (along_inj k a); [auto|rewrite along_0; auto]. }
    destruct (lit_edge V A k Enc y Ly Ny) as (e & f & He & Oy). destruct (classic (In y V)) as [Iy|Iy].
    - destruct (cyc_from L y (vertex_in y Iy Ly)) as [w Hw]. exists y, w. split; auto. apply tri_seg. exists y. split; auto. apply on_seg_l.
    - assert (In_ : in_seg e f y). { destruct (cyc_in _ _ _ He) as [Ie If]. destruct Oy as (t & Ht & Ey). exists t. split; auto. split; apply Rnot_le_lt; intros Q; apply Iy; rewrite Ey.
        - replace t with 0 by lra. rewrite along_0. auto.
        - replace t with 1 by lra. rewrite along_1. auto. }
      destruct (lit_pair V A k Enc GP e f y He In_ Ly) as (v & z & x & x' & Sp & P1 & P2 & _). exists x, x'. split; [eapply spans_edge; eauto|]. apply tri_seg. exists y. split; auto. eapply span_on; eauto.
  Qed.
  (** the triangles over two edges have no direction in common *)
  Lemma fan_once x y x' y' p : In (x, y) (cyc_edges L) -> In (x', y') (cyc_edges L) -> 0 < area2 k x p -> 0 < area2 k p y -> 0 < area2 k x' p -> 0 < area2 k p y' -> x = x' /\ y = y'.
  Proof.
    intros H H' P1 P2 P3 P4.
    assert (Sp : forall x y, In (x, y) (cyc_edges L) -> 0 < area2 k x p -> 0 < area2 k p y -> exists v z a b, spans V A k v z a b x y /\ 0 < area2 k v p /\ 0 < area2 k p z).
    { clear H H' P1 P2 P3 P4 x y x' y'. intros x y H P1 P2. destruct (edges_kind x y H) as [v Hv Lv (c & Hc & ->) (c' & Hc' & ->)|v z a b Sp].
      - exfalso. replace (area2 k (along k v c) p) with (c * area2 k v p) in P1 by (unv; ring). replace (area2 k p (along k v c')) with (- (c' * area2 k v p)) in P2 by (unv; ring). assert (0 < area2 k v p) by (clear - Hc P1; nra). assert (0 <= c' * area2 k v p) by (apply Rmult_le_pos; lra). lra.
      - exists v, z, a, b. split; auto. destruct (sp_rx _ _ _ _ _ _ _ _ _ Sp) as (r & Hr & ->), (sp_rx' _ _ _ _ _ _ _ _ _ Sp) as (r' & Hr' & ->).
        replace (area2 k (along k v r) p) with (r * area2 k v p) in P1 by (unv; ring). replace (area2 k p (along k z r')) with (r' * area2 k p z) in P2 by (unv; ring). split; [clear - P1 Hr|clear - P2 Hr']; nra. }
    destruct (Sp x y H P1 P2) as (v & z & a & b & S1 & A1 & A2). destruct (Sp x' y' H' P3 P4) as (v' & z' & a' & b' & S2 & A3 & A4).
    assert (Fst : forall v z a b x y v' z' a' b' x' y', spans V A k v z a b x y -> spans V A k v' z' a' b' x' y' -> 0 < area2 k v p -> 0 < area2 k p z -> 0 < area2 k v' p -> 0 < area2 k p z' -> ~ 0 < area2 k v v').
    { clear. intros v z a b x y v' z' a' b' x' y' S1 S2 A1 A2 A3 A4 Q. apply (sp_only _ _ _ _ _ _ _ _ _ S1 v'); try apply S2; auto.
      (* v' before p before z, within the angle of v and z *)
      pose proof (area_pl k v v' p z) as E. pose proof (sp_pos _ _ _ _ _ _ _ _ _ S1) as Pz. assert (0 < area2 k v v' * area2 k p z) by (apply Rmult_lt_0_compat; auto). assert (0 < area2 k v z * area2 k v' p) by (apply Rmult_lt_0_compat; auto).
      assert (Q1 : 0 < area2 k v p * area2 k v' z) by lra. clear - Q1 A1. nra. }
    assert (Snd : forall v z a b x y v' z' a' b' x' y', spans V A k v z a b x y -> spans V A k v' z' a' b' x' y' -> 0 < area2 k v p -> 0 < area2 k p z -> 0 < area2 k v' p -> 0 < area2 k p z' -> ~ 0 < area2 k z' z).
    { clear. intros v z a b x y v' z' a' b' x' y' S1 S2 A1 A2 A3 A4 Q. apply (sp_only _ _ _ _ _ _ _ _ _ S1 z'); try apply S2; auto.
      pose proof (area_pl k z v p z') as E. pose proof (sp_pos _ _ _ _ _ _ _ _ _ S1) as Pz.
      rewrite (area2_swap k v z) in E. rewrite (area2_swap k p z) in E. rewrite (area2_swap k z' z) in E. 
      assert (0 < area2 k p z * area2 k v z') by (assert (0 < area2 k v z * area2 k p z') by (apply Rmult_lt_0_compat; auto); assert (0 < area2 k z' z * area2 k v p) by (apply Rmult_lt_0_compat; auto); lra). clear - H A2. nra. }
    assert (Ev : v = v'). { destruct (Rtotal_order (area2 k v v') 0) as [Q|[Q|Q]]; [exfalso|destruct (classic (v = v')) as [|N]; auto; exfalso; apply (GP v v'); auto; [apply S1|apply S2]|exfalso].
      - apply (Fst v' z' a' b' x' y' v z a b x y); auto. rewrite area2_swap. lra.
      - apply (Fst v z a b x y v' z' a' b' x' y'); auto. }
    assert (Ez : z = z'). { destruct (Rtotal_order (area2 k z z') 0) as [Q|[Q|Q]]; [exfalso|destruct (classic (z = z')) as [|N]; auto; exfalso; apply (GP z z'); auto; [apply S1|apply S2]|exfalso].
      - apply (Snd v z a b x y v' z' a' b' x' y'); auto. rewrite area2_swap. lra.
      - apply (Snd v' z' a' b' x' y' v z a b x y); auto. }
    subst v' z'. destruct (bs_get v) as [B HB]; try apply S1. destruct (bs_get z) as [B' HB']; try apply S1. split.
    - rewrite <- (port_last v B x), <- (port_last v B x'); auto; [apply S2|apply S1].
    - rewrite <- (port_hd z B' y), <- (port_hd z B' y'); auto; [apply S2|apply S1].
  Qed.
End Run.
