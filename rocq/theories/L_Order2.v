(** The visible vertices of an arc of the ring lie, as seen from [k], between the lit points at its ends. *)
From Coq Require Import Reals Lra Lia Psatz List Arith.
From Verif Require Import Num Spec S_PolHull L_Geom L_PolHull L_PolHull3 L_Wind L_Ring L_Ring2 L_Lit L_Lit2 L_Order.
Import ListNotations.
Open Scope R_scope.

(** ** Neighbours in a ring without repetitions *)
Lemma cyc_mid {B} (X Y : list B) a b : In (a, b) (cyc_edges (X ++ a :: b :: Y)).
Proof.
  apply cyc_next with (i := length X).
  - rewrite nth_error_app2, Nat.sub_diag by lia. auto.
  - rewrite nth_error_app2 by lia. replace (S (length X) - length X)%nat with 1%nat by lia. auto.
Qed.
Lemma cyc_last {B} (b : B) t : In (last t b, b) (cyc_edges (b :: t)).
Proof.
  destruct t as [|c t] using rev_ind; [left; auto|]. rewrite last_last. replace (b :: t ++ [c]) with (b :: t ++ [c]) by auto. apply cyc_wrap.
Qed.
Lemma cyc_cases {B} (l : list B) a b : In (a, b) (cyc_edges l) -> (exists X Y, l = X ++ a :: b :: Y) \/ (exists t, l = b :: t /\ last t b = a).
Proof.
  assert (G : forall (t : list B) v x, In (a, b) (combine (v :: t) (t ++ [x])) -> (exists X Y, v :: t = X ++ a :: b :: Y) \/ (b = x /\ a = last t v)).
  { induction t as [|u t IH]; intros v x H. { cbn in H. destruct H as [H|[]]. injection H as -> ->. right. auto. }
    cbn [app combine] in H. destruct H as [H|H]. { injection H as -> ->. left. exists [], t. auto. }
    destruct (IH u x H) as [(X & Y & E)|[-> ->]]. { left. exists (v :: X), Y. cbn. rewrite <- E. auto. } right. split; auto. rewrite last_cons. auto. }
  destruct l as [|v t]; [intros []|]. unfold cyc_edges. intros H. destruct (G t v v H) as [|[-> ->]]; auto. right. exists t. auto.
Qed.
Lemma nodup_split {B} (X Y X' Y' : list B) a : NoDup (X ++ a :: Y) -> X ++ a :: Y = X' ++ a :: Y' -> X = X' /\ Y = Y'.
Proof.
  revert X'. induction X as [|x X IH]; intros [|x' X'] ND E; cbn in *.
  - injection E as ->. auto.
  - injection E as <- E. exfalso. apply NoDup_cons_iff in ND as [N _]. apply N. rewrite E. apply in_or_app. right; left; auto.
  - injection E as -> E. exfalso. apply NoDup_cons_iff in ND as [N _]. apply N. apply in_or_app. right; left; auto.
  - injection E as -> E. apply NoDup_cons_iff in ND as [_ ND]. destruct (IH X' ND E) as [-> ->]. auto.
Qed.
Lemma cyc_next_unique {B} (X Y : list B) w n : NoDup (X ++ w :: Y) -> In (w, n) (cyc_edges (X ++ w :: Y)) -> n = hd w (Y ++ X).
Proof.
  intros ND H. destruct (cyc_cases _ _ _ H) as [(X' & Y' & E)|(t & E & L)].
  - destruct (nodup_split _ _ _ _ _ ND E) as [<- ->]. auto.
  - destruct t as [|u t] using rev_ind. { cbn in L. subst. destruct X as [|x X]; [cbn in E; injection E as ->; auto|]. destruct X; discriminate. }
    rewrite last_last in L. subst u. change (n :: t ++ [w]) with ((n :: t) ++ w :: []) in E. destruct (nodup_split _ _ _ _ _ ND E) as [-> ->]. auto.
Qed.
Lemma cyc_prev_unique {B} (X Y : list B) w n : NoDup (X ++ w :: Y) -> In (n, w) (cyc_edges (X ++ w :: Y)) -> n = last (Y ++ X) w.
Proof.
  intros ND H. destruct (cyc_cases _ _ _ H) as [(X' & Y' & E)|(t & E & L)].
  - replace (X' ++ n :: w :: Y') with ((X' ++ [n]) ++ w :: Y') in E by (rewrite <- app_assoc; auto). destruct (nodup_split _ _ _ _ _ ND E) as [-> ->]. rewrite app_assoc, last_last. auto.
  - change (w :: t) with ([] ++ w :: t) in E. destruct (nodup_split _ _ _ _ _ ND E) as [-> ->]. rewrite app_nil_r. auto.
Qed.
Lemma links_in p l e f : In (e, f) (links p l) -> In f l /\ exists X Y, p :: l = X ++ e :: f :: Y.
Proof.
  revert p. induction l as [|q r IH]; intros p H; [destruct H|]. cbn in H. destruct H as [H|H].
  - injection H as -> ->. split; [left; auto|]. exists [], r. auto.
  - destruct (IH q H) as [H1 (X & Y & E)]. split; [right; auto|]. exists (p :: X), Y. cbn. rewrite <- E. auto.
Qed.
Lemma links_start p l e f L z : In (e, f) (links p l) -> p :: l = L ++ [z] -> In e L.
Proof.
  intros H E. destruct (links_in _ _ _ _ H) as [_ (X & Y & E')]. rewrite E' in E.
  assert (Q : L = removelast (X ++ e :: f :: Y)) by (rewrite E, removelast_last; auto). rewrite Q, removelast_app by discriminate.
  apply in_or_app. right. cbn. left. auto.
Qed.
Lemma last_in {B} (l : list B) d : l <> [] -> In (last l d) l.
Proof. intros N. destruct l as [|x l _] using rev_ind; [congruence|]. rewrite last_last. apply in_or_app. right; left; auto. Qed.
Lemma hd_in {B} (l : list B) d : l <> [] -> In (hd d l) l.
Proof. destruct l; [congruence|]. left. auto. Qed.

Section Arc.
  Variables (M N : list Pt) (A : region) (k d : Pt).
  Hypothesis HM : M <> [].
  Hypothesis HN : N <> [].
  Notation V := (M ++ N).
  Hypothesis Enc : encloses V A.
  Hypothesis GP : forall v w, In v V -> In w V -> v <> w -> area2 k v w <> 0.
  Notation Ed := (Ed V).
  Notation lit := (lit A k).
  Let RO : ringed Ed A := proj1 (proj2 (proj2 (enc_ring V A Enc))).
  Let ND : NoDup V := proj1 (enc_ring V A Enc).
  Let a1 := last N d.
  Let b1 := hd d M.
  Let a2 := last M d.
  Let b2 := hd d N.
  Variables (y1 y2 : Pt).
  Hypothesis I1 : in_seg a1 b1 y1.
  Hypothesis I2 : in_seg a2 b2 y2.
  Hypothesis L1 : lit y1.
  Hypothesis L2 : lit y2.

  Lemma ed_first : Ed a1 b1.
  Proof.
    unfold a1, b1. destruct M as [|b m]; [congruence|]. cbn [hd app]. unfold L_Lit.Ed. replace (last N d) with (last (m ++ N) b); [apply cyc_last|].
    destruct N as [|z n _] using rev_ind; [congruence|]. rewrite app_assoc, !last_last. auto.
  Qed.
  Lemma ed_second : Ed a2 b2.
  Proof.
    unfold a2, b2, L_Lit.Ed. destruct M as [|z m _] using rev_ind; [congruence|]. destruct N as [|b n]; [congruence|]. rewrite last_last. cbn [hd]. rewrite <- app_assoc. apply cyc_mid.
  Qed.
  Lemma y_not_v y a b : Ed a b -> in_seg a b y -> ~ In y V.
  Proof. intros. eapply (in_edge_not_vertex V A Enc); eauto. Qed.
  Lemma disjoint x : In x M -> In x N -> False.
  Proof.
    intros H1 H2. apply in_split in H1 as (X & Y & E). pose proof ND as Q. rewrite E, <- app_assoc in Q. cbn in Q. apply NoDup_remove_2 in Q. apply Q. rewrite !in_app_iff. auto.
  Qed.
  Lemma a1_N : In a1 N. Proof. apply last_in; auto. Qed.
  Lemma b1_M : In b1 M. Proof. apply hd_in; auto. Qed.
  Lemma a2_M : In a2 M. Proof. apply last_in; auto. Qed.
  Lemma b2_N : In b2 N. Proof. apply hd_in; auto. Qed.

  Lemma arc_links e f : In (e, f) (links y1 (M ++ [y2])) -> exists e' f', Ed e' f' /\ (forall x, on_seg e f x -> on_seg e' f' x) /\
    ((In e M /\ e' = e) \/ (e = y1 /\ f = b1)) /\ (In f M -> f' = f).
  Proof.
    intros H. assert (exists b m, M = b :: m) as (b & m & EM). { clear - HM. destruct M as [|b m]; [congruence|]. exists b, m. auto. }
    assert (Eb : b1 = b) by (unfold b1; rewrite EM; auto). rewrite EM in H. cbn [app links] in H. destruct H as [H|H].
    - injection H as <- <-. exists a1, b1. split; [apply ed_first|]. split; [|split; auto].
      intros x (t & Ht & ->). destruct I1 as (u & Hu & Eu). exists (u + t * (1 - u)). split; [nra|]. rewrite <- Eb, Eu. unv. apply pair_eq; ring.
    - rewrite links_app in H. apply in_app_or in H as [H|H].
      + destruct (links_in _ _ _ _ H) as [Hf (X & Y & E)]. exists e, f. split; [unfold L_Lit.Ed; rewrite EM, E, <- app_assoc; cbn [app]; apply cyc_mid|].
        split; auto. split; auto. left. split; auto. rewrite EM, E. apply in_or_app. right; left; auto.
      + cbn in H. destruct H as [H|[]]. injection H as <- <-. exists a2, b2. split; [apply ed_second|].
        assert (Ea : a2 = last m b) by (unfold a2; rewrite EM, last_cons; auto). split; [|split].
        * intros x (t & Ht & ->). destruct I2 as (u & Hu & Eu). exists (t * u). split; [nra|]. rewrite <- Ea, Eu. unv. apply pair_eq; ring.
        * left. split; auto. rewrite <- Ea. apply a2_M.
        * intros Hy. exfalso. apply (y_not_v y2 a2 b2); [apply ed_second|apply I2|]. apply in_or_app. auto.
  Qed.

  Hypothesis Cr : 0 < area2 k y1 y2.

  Lemma arc_point a c l1 l2 a' c' m L : M ++ [y2] = l1 ++ c :: l2 -> c :: l2 = L ++ [y2] -> last l1 y1 = a -> Ed a' c' -> in_seg a c m -> in_seg a' c' m ->
    (exists g, 0 < g /\ vsub c a = smul g (vsub c' a')) -> lit m -> m <> y1 -> m <> y2 -> ~ In c' l1 -> ~ In a' L ->
    0 < area2 k y1 m /\ 0 < area2 k m y2.
  Proof.
    intros E1 E2 E3 H Ia Ia2 G Lm M1 M2 Nc Na.
    assert (EM : M = l1 ++ L). { rewrite E2, app_assoc in E1. apply app_inj_tail in E1. tauto. }
    assert (Ey : last (M ++ [y2]) y1 = y2) by apply last_last.
    pose proof ed_first as D1. pose proof ed_second as D2.
    (* a lit point on the first edge, before y1 *)
    assert (exists y4, in_seg a1 b1 y4 /\ lit y4 /\ y4 <> y1 /\ ~ on_seg y1 b1 y4) as (y4 & I4 & L4 & M3 & Q4).
    { assert (Hd : 0 < area2 k a1 b1) by (eapply (lit_dir V A k Enc GP); eauto).
      destruct (next_lit V A k Enc GP (-1) (or_intror eq_refl) b1 a1 y1) as (z & Hz & Lz & Z1 & Z2 & Z3 & Z4); auto.
      { right. auto. } { apply in_seg_sym; auto. } { unfold br. rewrite area2_swap. lra. }
      pose proof I1 as (u & Hu & Eu).
      assert (Bz : forall t, br k (-1) (along y1 a1 t) z = (1 - t) * br k (-1) y1 z + t * br k (-1) a1 z) by (intros; unfold br; unv; ring).
      set (f0 := br k (-1) y1 z) in *. set (f1 := br k (-1) a1 z) in *.
      assert (exists t, 0 < t < 1 /\ 0 < (1 - t) * f0 + t * f1) as (t & Ht & Pt').
      { exists (f0 / (f0 + Rabs f1 + f0)). pose proof (Rabs_pos f1). pose proof (Rle_abs (- f1)). rewrite Rabs_Ropp in H1. set (D := f0 + Rabs f1 + f0). assert (HD : 0 < D) by (unfold D; lra).
        assert (T : f0 / D * D = f0) by (field; lra). assert (T0 : 0 < f0 / D) by (apply Rdiv_lt_0_compat; auto). set (q := f0 / D) in *. unfold D in T. split; [split; nra|]. nra. }
      exists (along y1 a1 t). assert (E4 : along y1 a1 t = along a1 b1 (u * (1 - t))) by (rewrite Eu; unv; apply pair_eq; ring).
      assert (I4 : in_seg a1 b1 (along y1 a1 t)) by (exists (u * (1 - t)); split; [nra|auto]).
      assert (Na1 : a1 <> b1) by (apply (r_edge _ _ RO); auto).
      repeat split; auto.
      - apply Z4; [apply on_seg_sym, in_seg_on; auto| |rewrite Bz; auto]. rewrite E4, Eu. replace (br k (-1) (along a1 b1 u) (along a1 b1 (u * (1 - t)))) with (u * t * area2 k a1 b1) by (unfold br; unv; ring). assert (0 < u * t) by (apply Rmult_lt_0_compat; lra). apply Rmult_le_pos; lra.
      - apply Z4; [apply on_seg_sym, in_seg_on; auto| |rewrite Bz; auto]. rewrite E4, Eu. replace (br k (-1) (along a1 b1 u) (along a1 b1 (u * (1 - t)))) with (u * t * area2 k a1 b1) by (unfold br; unv; ring). assert (0 < u * t) by (apply Rmult_lt_0_compat; lra). apply Rmult_le_pos; lra.
      - rewrite E4, Eu. intros E. apply along_inj in E; auto. assert (0 < u * t) by (apply Rmult_lt_0_compat; lra). lra.
      - intros (v & Hv & E). rewrite E4 in E. rewrite Eu in E. replace (along (along a1 b1 u) b1 v) with (along a1 b1 (u + v * (1 - u))) in E by (unv; apply pair_eq; ring). apply along_inj in E; auto. assert (0 < u * t) by (apply Rmult_lt_0_compat; lra). assert (0 <= v * (1 - u)) by (apply Rmult_le_pos; lra). lra. }
    assert (Ne : forall x, In x M -> x <> a1) by (intros x Hx ->; eapply disjoint; eauto using a1_N).
    pose proof (chain_between V A k Enc GP y1 (M ++ [y2])) as CB. rewrite Ey in CB.
    destruct (CB L1 L2) with (a := a) (c := c) (l1 := l1) (l2 := l2) (a' := a') (c' := c') (m := m) (a4 := a1) (c4 := b1) (y4 := y4) as [B1 _]; auto.
    - exists a1, b1. split; auto. apply in_seg_on; auto.
    - exists a2, b2. split; auto. apply in_seg_on; auto.
    - intros e f x Hl S1. destruct (arc_links e f Hl) as (e' & f' & He & Hx & _). exists e', f'. auto.
    - intros e f Hl S1. assert (Hl' : In (e, f) (links y1 (M ++ [y2]))).
      { rewrite E1, links_app. apply in_or_app. destruct Hl; [left; auto|right; cbn; right; auto]. }
      destruct (arc_links e f Hl') as (e' & f' & He & Hx & X1 & X2). destruct (only_edge V A Enc a' c' e' f' m) as [-> ->]; auto.
      destruct Hl as [Hl|Hl].
      + apply Nc. destruct (links_in _ _ _ _ Hl) as [Hf _]. rewrite X2; auto. rewrite EM. apply in_or_app. auto.
      + assert (He' : In e L) by exact (links_start c l2 e f L y2 Hl E2). assert (Hem : In e M) by (rewrite EM; apply in_or_app; auto).
        destruct X1 as [[_ X1]|[X1 _]]; [subst e'; auto|]. subst e. apply (y_not_v y1 a1 b1); auto. apply in_or_app; auto.
    - intros ->. destruct (only_edge V A Enc a1 b1 a2 b2 y2) as [E _]; auto; [apply in_seg_on; auto|]. apply (Ne a2 a2_M). auto.
    - intros e f Hl S1. destruct (arc_links e f Hl) as (e' & f' & He & Hx & X1 & _). destruct (only_edge V A Enc a1 b1 e' f' y4) as [Ea _]; auto.
      destruct X1 as [[X1 X2]|[-> ->]]; auto. apply (Ne e X1). congruence.
  Qed.

  Lemma limit_nonneg r f0 f1 : 0 < r -> (forall t, 0 < t < r -> 0 < (1 - t) * f0 + t * f1) -> 0 <= f0.
  Proof.
    intros Hr H. apply Rnot_lt_le. intros L. pose proof (Rabs_pos f1). pose proof (Rle_abs f1).
    set (q := Rmin (r / 2) (- f0 / (Rabs f1 + 1 - f0))). assert (Q : 0 < - f0 / (Rabs f1 + 1 - f0)) by (apply Rdiv_lt_0_compat; lra).
    assert (Q0 : 0 < q) by (apply Rmin_glb_lt; lra). assert (Q1 : q <= r / 2) by apply Rmin_l. assert (Q2 : q <= - f0 / (Rabs f1 + 1 - f0)) by apply Rmin_r.
    apply (Rmult_le_compat_r (Rabs f1 + 1 - f0)) in Q2; [|lra]. replace (- f0 / (Rabs f1 + 1 - f0) * (Rabs f1 + 1 - f0)) with (- f0) in Q2 by (field; lra).
    specialize (H q ltac:(lra)). nra.
  Qed.

  Theorem arc_vertex w : In w M -> lit w -> 0 <= area2 k y1 w /\ 0 <= area2 k w y2.
  Proof.
    intros Hw Lw. assert (Hv : In w V) by (apply in_or_app; auto).
    pose proof ed_first as D1. pose proof ed_second as D2.
    apply in_split in Hw as (M1 & M2 & EM).
    assert (EV : V = M1 ++ w :: (M2 ++ N)) by (rewrite EM, <- app_assoc; auto).
    pose proof ND as NDw. rewrite EV in NDw.
    assert (Nw : ~ In w M1 /\ ~ In w M2 /\ ~ In w N). { apply NoDup_remove_2 in NDw. rewrite !in_app_iff in NDw. tauto. }
    destruct Nw as (Nw1 & Nw2 & Nw3).
    assert (X : exists n' x, (Ed w n' \/ Ed n' w) /\ in_seg w n' x /\ (forall t, 0 < t <= 1 -> lit (along w x t))).
    { destruct (cyc_from V w Hv) as [n Hn]. assert (Hn' : area2 k w n <> 0) by (apply (edge_area V A k Enc GP); auto).
      assert (exists s, (s = 1 \/ s = -1) /\ 0 < s * area2 k w n) as (s & Hs & Ps). { destruct (Rlt_dec 0 (area2 k w n)); [exists 1|exists (-1)]; split; auto; lra. }
      destruct (near_lit V A k Enc GP s Hs w n) as (n' & x & U & _ & Ix & Lx & _); auto. { left. auto. } exists n', x. auto. }
    destruct X as (n' & x & U & (u & Hu & Ex) & Lx).
    (* for points close to w *)
    assert (Y : exists r, 0 < r /\ forall t, 0 < t < r -> 0 < area2 k y1 (along w x t) /\ 0 < area2 k (along w x t) y2).
    { destruct U as [U|U].
      - (* forwards *)
        assert (En : n' = hd w (M2 ++ N)). { unfold L_Lit.Ed in U. rewrite EV in U. rewrite (cyc_next_unique _ _ _ _ NDw U). destruct M2 as [|? ?]; [destruct N; [congruence|auto]|auto]. }
        assert (Nwn : w <> n') by (apply (r_edge _ _ RO); auto).
        assert (C : exists c l2 g, M2 ++ [y2] = c :: l2 /\ 0 < g <= 1 /\ c = along w n' g /\ (M2 = [] \/ n' = c)).
        { destruct M2 as [|c m2] eqn:E2.
          - assert (Ea : a2 = w) by (unfold a2; rewrite EM, last_last; auto). assert (Eb : n' = b2) by (rewrite En; unfold b2; destruct N; [congruence|auto]).
            destruct I2 as (g & Hg & Eg). exists y2, [], g. rewrite Ea, <- Eb in Eg. repeat split; auto; lra.
          - exists c, (m2 ++ [y2]), 1. rewrite En. cbn. rewrite along_1. repeat split; auto; lra. }
        destruct C as (c & l2 & g & E2 & Hg & Ec & Ecn). exists (Rmin g 1). split; [apply Rmin_glb_lt; lra|]. intros t Ht.
        pose proof (Rmin_l g 1). pose proof (Rmin_r g 1).
        assert (Tu : 0 < t * u < g) by nra.
        assert (Em : along w x t = along w n' (t * u)) by (rewrite Ex; unv; apply pair_eq; ring).
        assert (Im : in_seg w n' (along w x t)) by (exists (t * u); split; [lra|auto]).
        apply (arc_point w c (M1 ++ [w]) l2 w n' (along w x t) M2); auto.
        + rewrite EM, <- app_assoc. cbn. rewrite E2, <- app_assoc. auto.
        + apply last_last.
        + exists (t * u / g). assert (T : t * u / g * g = t * u) by (field; lra). split; [split; [apply Rdiv_lt_0_compat; lra|]|].
          * apply (Rmult_lt_reg_r g); lra.
          * rewrite Em, Ec. replace (along w (along w n' g) (t * u / g)) with (along w n' (t * u / g * g)) by (unv; apply pair_eq; ring). rewrite T. auto.
        + exists g. split; [lra|]. rewrite Ec. unv. apply pair_eq; ring.
        + apply Lx. lra.
        + intros E. destruct (only_edge V A Enc w n' a1 b1 y1) as [E' _]; auto; [rewrite <- E; auto|apply in_seg_on; auto|]. apply Nw3. rewrite E'. apply a1_N.
        + intros E. destruct (only_edge V A Enc w n' a2 b2 y2) as [E1 E1']; auto; [rewrite <- E; auto|apply in_seg_on; auto|].
          destruct Ecn as [-> | ->].
          * cbn in E2. injection E2 as E2 _. rewrite <- E2 in Ec. rewrite Em in E. rewrite Ec in E. apply along_inj in E; auto. lra.
          * assert (HcM : In c V). { apply (Un_V V A k Enc GP 1 (or_introl eq_refl) w c). left. auto. }
            destruct M2 as [|c0 m2]. { cbn in E2. injection E2 as E2 _. apply (y_not_v y2 a2 b2); auto. rewrite E2. auto. }
            cbn in E2. injection E2 as -> _. apply (disjoint c). { rewrite EM. apply in_or_app. right. right. left. auto. } rewrite E1'. apply b2_N.
        + rewrite En. intros Hi. apply in_app_or in Hi as [Hi|[Hi|[]]].
          * replace (M1 ++ w :: M2 ++ N) with ((M1 ++ [w]) ++ (M2 ++ N)) in NDw by (rewrite <- app_assoc; auto).
            assert (Hh : In (hd w (M2 ++ N)) (M2 ++ N)) by (apply hd_in; intros Q; apply app_eq_nil in Q; tauto).
            apply in_split in Hi as (P1 & P2 & Ep). apply (NoDup_remove_2 P1 (P2 ++ [w] ++ M2 ++ N) (hd w (M2 ++ N))).
            { rewrite Ep, <- !app_assoc in NDw. cbn in NDw. exact NDw. } rewrite !in_app_iff. rewrite in_app_iff in Hh. tauto.
          * rewrite En in Nwn. auto.
      - (* backwards *)
        assert (En : n' = last (N ++ M1) w). { unfold L_Lit.Ed in U. rewrite EV in U. rewrite (cyc_prev_unique _ _ _ _ NDw U). rewrite <- app_assoc.
          destruct (N ++ M1) as [|z q _] eqn:Eq using rev_ind; [apply app_eq_nil in Eq; tauto|]. rewrite app_assoc, !last_last. auto. }
        assert (Nwn : w <> n') by (intros E; apply (r_edge _ _ RO _ _ U); auto).
        assert (C : exists a g, last M1 y1 = a /\ 0 < g <= 1 /\ a = along w n' g /\ ((M1 = [] /\ a = y1) \/ (M1 <> [] /\ n' = a))).
        { destruct M1 as [|m m1 _] eqn:E1 using rev_ind.
          - assert (Eb : b1 = w) by (unfold b1; rewrite EM; auto). assert (Ea : n' = a1). { rewrite En, app_nil_r. unfold a1. destruct N as [|z q _] using rev_ind; [congruence|]. rewrite !last_last. auto. }
            destruct I1 as (g & Hg & Eg). exists y1, (1 - g). rewrite Eb, <- Ea in Eg. split; auto. split; [lra|]. split; [rewrite Eg; unv; apply pair_eq; ring|auto].
          - exists m, 1. rewrite last_last. rewrite En, app_assoc, last_last, along_1. split; auto. split; [lra|]. split; auto. right. split; auto. destruct m1; discriminate. }
        destruct C as (a & g & E2 & Hg & Ec & Ecn). exists (Rmin g 1). split; [apply Rmin_glb_lt; lra|]. intros t Ht.
        pose proof (Rmin_l g 1). pose proof (Rmin_r g 1).
        assert (Tu : 0 < t * u < g) by nra.
        assert (Em : along w x t = along w n' (t * u)) by (rewrite Ex; unv; apply pair_eq; ring).
        assert (Im : in_seg n' w (along w x t)) by (apply in_seg_sym; exists (t * u); split; [lra|auto]).
        apply (arc_point a w M1 (M2 ++ [y2]) n' w (along w x t) (w :: M2)); auto.
        + rewrite EM, <- app_assoc. auto.
        + apply in_seg_sym. exists (t * u / g). assert (T : t * u / g * g = t * u) by (field; lra). split; [split; [apply Rdiv_lt_0_compat; lra|]|].
          * apply (Rmult_lt_reg_r g); lra.
          * rewrite Em, Ec. replace (along w (along w n' g) (t * u / g)) with (along w n' (t * u / g * g)) by (unv; apply pair_eq; ring). rewrite T. auto.
        + exists g. split; [lra|]. rewrite Ec. unv. apply pair_eq; ring.
        + apply Lx. lra.
        + intros E. destruct (only_edge V A Enc n' w a1 b1 y1) as [E1 E1']; auto; [rewrite <- E; auto|apply in_seg_on; auto|].
          destruct Ecn as [[_ Ecn]|[NM Ecn]].
          * rewrite Em in E. rewrite <- Ecn, Ec in E. apply along_inj in E; auto. lra.
          * apply Nw1. rewrite E1'. unfold b1. rewrite EM. destruct M1; [congruence|]. left. auto.
        + intros E. destruct (only_edge V A Enc n' w a2 b2 y2) as [_ E']; auto; [rewrite <- E; auto|apply in_seg_on; auto|]. apply Nw3. rewrite E'. apply b2_N.
        + intros Hi. destruct Hi as [Hi|Hi]; [auto|]. assert (Hl : In n' (N ++ M1)) by (rewrite En; apply last_in; intros Q; apply app_eq_nil in Q; tauto).
          apply in_split in Hi as (P1 & P2 & Ep). rewrite Ep in NDw. replace (M1 ++ w :: (P1 ++ n' :: P2) ++ N) with ((M1 ++ w :: P1) ++ n' :: P2 ++ N) in NDw by (rewrite <- !app_assoc; cbn; try rewrite <- app_assoc; auto).
          apply NoDup_remove_2 in NDw. apply NDw. rewrite !in_app_iff. rewrite in_app_iff in Hl. tauto. }
    destruct Y as (r & Hr & Y). split.
    - apply (limit_nonneg r _ (area2 k y1 x)); auto. intros t Ht. destruct (Y t Ht) as [Y1 _]. replace (area2 k y1 (along w x t)) with ((1 - t) * area2 k y1 w + t * area2 k y1 x) in Y1 by (unv; ring). auto.
    - apply (limit_nonneg r _ (area2 k x y2)); auto. intros t Ht. destruct (Y t Ht) as [_ Y1]. replace (area2 k (along w x t) y2) with ((1 - t) * area2 k w y2 + t * area2 k x y2) in Y1 by (unv; ring). auto.
  Qed.
End Arc.
