(** Polygons with rational corners given as triangles satisfy the premises of the theorem about a single kernel point:
    the world made of the pieces answers plainly, and [roomy] is decided by computation. *)
From Coq Require Import QArith Qreals Reals Lra Lia Psatz List Bool Arith ZArith.
From Verif Require Import Num Spec M_Cg M_Motion M_Obstacle M_PolHull S_PolHull S_HullOne L_Geom L_Cg L_PolHull L_PolHull2 L_PolHull4 W_PolWorld W_PolTransfer W_PolTriangles.
Import ListNotations.
Open Scope R_scope.

(** ** The parts of an answer lie apart *)
Fixpoint sep (l : list (R * R)) : Prop :=
  match l with [] => True | i :: r => (forall j, In j r -> snd i < fst j) /\ sep r end.
Lemma ins_low m l : forall i, m < fst i -> (forall j, In j l -> m < fst j) -> forall j, In j (ins i l) -> m < fst j.
Proof.
  induction l as [|j l IH]; intros i Hi Hl k Hk; cbn [ins] in Hk.
  - destruct Hk as [<-|[]]; auto.
  - revert Hk. nR. destruct (Rltb_spec (snd i) (fst j)); [|destruct (Rltb_spec (snd j) (fst i))]; intros Hk.
    + destruct Hk as [<-|Hk]; auto.
    + destruct Hk as [<-|Hk]; [apply Hl; left; auto|]. apply (IH i); auto. intros; apply Hl; right; auto.
    + apply (IH (nmin (fst i) (fst j), nmax (snd i) (snd j))); auto.
      * cbn [fst]. assert (m < fst j) by (apply Hl; left; auto). unfold nmin. nR. destruct (Rleb_spec (fst i) (fst j)); auto.
      * intros; apply Hl; right; auto.
Qed.
Lemma ins_sep l : forall i, fst i <= snd i -> (forall j, In j l -> fst j <= snd j) -> sep l -> sep (ins i l).
Proof.
  induction l as [|j l IH]; intros i Hi Hl Hs; cbn [ins].
  - cbn. split; auto. intros j [].
  - destruct Hs as [Hs Hr]. assert (Hj : fst j <= snd j) by (apply Hl; left; auto). assert (Hl' : forall k, In k l -> fst k <= snd k) by (intros; apply Hl; right; auto).
    nR. destruct (Rltb_spec (snd i) (fst j)) as [A|A]; [|destruct (Rltb_spec (snd j) (fst i)) as [B|B]].
    + cbn. repeat split; auto. intros k [<-|Hk]; auto. specialize (Hs k Hk). lra.
    + cbn. split; [|apply IH; auto]. apply ins_low; auto.
    + apply IH; auto. cbn [fst snd]. unfold nmin, nmax. nR. destruct (Rleb_spec (fst i) (fst j)), (Rleb_spec (snd i) (snd j)); lra.
Qed.
Lemma spans_sep pieces (s : seg R) : sep (spans pieces s).
Proof.
  induction pieces as [|pc pieces IH]; cbn [spans fold_right]; [exact I|]. fold (spans pieces s).
  destruct (clip s pc) as [[lo hi]|] eqn:E; auto. apply ins_sep; auto. { apply (clip_nonempty _ _ _ _ E). } apply spans_spec.
Qed.
Lemma sep_mid l1 : forall i l2 j, sep (l1 ++ i :: l2) -> (forall j, In j (l1 ++ i :: l2) -> fst j <= snd j) -> In j (l1 ++ l2) -> snd j < fst i \/ snd i < fst j.
Proof.
  induction l1 as [|h l1 IH]; intros i l2 j Hs Hl Hj; cbn [app sep] in *.
  - right. apply Hs. auto.
  - destruct Hs as [Hh Hs]. destruct Hj as [<-|Hj].
    + left. apply Hh. apply in_or_app. right. left. auto.
    + apply IH with (l2 := l2); auto. intros; apply Hl; right; auto.
Qed.
Lemma parts_classify (ps : list (part R)) : parts_of (classify ps) = ps.
Proof.
  assert (G1 : forallb is_line ps = true -> map PLine (map coords_of ps) = ps).
  { induction ps as [|[p|c] ps IH]; cbn; auto; intros H; [discriminate|]. rewrite IH; auto. }
  assert (G2 : forallb (fun p => negb (is_line p)) ps = true -> map PPoint (concat (map coords_of ps)) = ps).
  { clear. induction ps as [|[p|c] ps IH]; cbn; auto; intros H; [|discriminate]. rewrite IH; auto. }
  assert (G : parts_of (if forallb is_line ps then GMultiLine (map coords_of ps) else if forallb (fun p => negb (is_line p)) ps then GOther (concat (map coords_of ps)) else GCollection ps) = ps).
  { destruct (forallb is_line ps); [apply G1; auto|]. destruct (forallb (fun p => negb (is_line p)) ps); [apply G2; auto|]. reflexivity. }
  destruct ps as [|[p|c] [|q r]]; auto.
Qed.
Lemma classify_mixed (ps gs : list (part R)) : classify ps = GCollection gs -> exists q, In (PPoint q) gs.
Proof.
  intros H. assert (G : forallb is_line ps = false -> exists q, In (PPoint q) ps).
  { clear. induction ps as [|[p|c] ps IH]; cbn; intros H; [discriminate|exists p; auto|]. destruct (IH H) as [q Hq]. exists q. auto. }
  assert (E : gs = ps). { rewrite <- (parts_classify ps), H. reflexivity. } subst gs. apply G. destruct (forallb is_line ps) eqn:E; auto. exfalso.
  unfold classify in H. destruct ps as [|[p|c] [|q r]]; try discriminate; rewrite E in H; discriminate.
Qed.
Lemma span_part_region (s : seg R) i x : part_region (span_part s i) x -> fst i <= snd i -> exists t, fst i <= t <= snd i /\ x = along (fst s) (snd s) t.
Proof.
  intros H Hi. unfold span_part in H. destruct (_ || _) in H; cbn [part_region] in H.
  - exists (fst i). split; [lra|]. rewrite <- at_along. auto.
  - apply polyline2 in H. rewrite !at_along in H. destruct H as (t & Ht & ->). exists (fst i + t * (snd i - fst i)). split; [split; nra|]. destruct s as [[a b] [c d]]. unv. apply pair_eq; ring.
Qed.
Lemma pieces_plain pieces K (s : seg R) : fst s <> snd s -> plain (pw_meet (pieces_world pieces K) s).
Proof.
  intros Ns. cbn [pw_meet pieces_world]. pose proof (spans_sep pieces s) as Sp. pose proof (proj2 (spans_spec pieces s)) as Hl. set (l := spans pieces s) in *. constructor.
  - intros c Hc. rewrite parts_classify in Hc. apply in_map_iff in Hc as (i & E & Hi). unfold span_part in E. nR. destruct (Reqb_spec (fst i) (snd i)) as [|Ne]; [discriminate|].
    destruct (pt_eqb (fst s) (snd s)) eqn:Q; [discriminate|]. cbn [orb] in E. injection E as <-. eexists _, _. split; [reflexivity|]. rewrite !at_along. intros X. apply Ne. apply (along_inj _ _ _ _ Ns X).
  - intros P p Q x q E Hq Hp Hx. rewrite parts_classify in E. apply map_eq_app in E as (l1 & l2 & El & E1 & E2). destruct l2 as [|i l2]; [discriminate|]. cbn [map] in E2. injection E2 as Ep EQ.
    assert (Hj : exists j, In j (l1 ++ l2) /\ span_part s j = q). { rewrite <- E1, <- EQ, <- map_app in Hq. apply in_map_iff in Hq as (j & H1 & H2). exists j. auto. }
    destruct Hj as (j & Hj & Ej). subst p q. rewrite El in Sp, Hl.
    destruct (span_part_region s i x Hp) as (t & Ht & Et). { apply Hl. apply in_or_app; right; left; auto. }
    destruct (span_part_region s j x Hx) as (t' & Ht' & Et'). { apply Hl. apply in_app_or in Hj. apply in_or_app; cbn; tauto. }
    assert (t = t') by (apply (along_inj (fst s) (snd s)); auto; congruence). subst t'. destruct (sep_mid l1 i l2 j Sp Hl Hj); lra.
  - apply classify_mixed.
Qed.

(** ** Room around the kernel point *)
Lemma cyc_map {B C} (f : B -> C) l a b : In (a, b) (cyc_edges (map f l)) -> exists a' b', In (a', b') (cyc_edges l) /\ a = f a' /\ b = f b'.
Proof.
  assert (G : forall x y : list B, In (a, b) (combine (map f x) (map f y)) -> exists a' b', In (a', b') (combine x y) /\ a = f a' /\ b = f b').
  { induction x as [|u x IH]; intros [|v y] H; try (destruct H; fail). cbn in H. destruct H as [H|H]; [injection H as <- <-; exists u, v; cbn; auto|]. destruct (IH y H) as (a' & b' & H1 & H2). exists a', b'. cbn. auto. }
  destruct l as [|v t]; [intros []|]. cbn [map cyc_edges]. intros H. apply G. rewrite map_app. exact H.
Qed.
Open Scope Q_scope.
Definition ptQ (k v : pt Q) (q : Q) : pt Q := (fst k + q * (fst v - fst k), snd k + q * (snd v - snd k)).
Definition dotQ (a b p : pt Q) : Q := (fst p - fst a) * (fst p - fst b) + (snd p - snd a) * (snd p - snd b).
Definition hit (k v a b : pt Q) : Q := areaQ a b k / (areaQ a b k - areaQ a b v).
Definition hits (V : list (pt Q)) (k v : pt Q) : list Q :=
  flat_map (fun '(a, b) => if Qeq_bool (areaQ a b k) (areaQ a b v) then []
                           else if posb (hit k v a b) && Qle_bool (dotQ a b (ptQ k v (hit k v a b))) 0 then [hit k v a b] else []) (cyc_edges V).
Definition nz (q : Q) : bool := negb (Qeq_bool q 0).
Fixpoint gpb (k : pt Q) (V : list (pt Q)) : bool :=
  match V with [] => true | v :: r => forallb (fun w => nz (areaQ k v w)) r && gpb k r end.
Definition roomyb (V : list (pt Q)) (k : pt Q) : bool :=
  gpb k V &&
  forallb (fun '(a, b) => posb (areaQ k a b - (1 # 1000000)) || posb (- areaQ k a b - (1 # 1000000))) (cyc_edges V) &&
  forallb (fun v =>
    forallb (fun '(a, b) => negb (Qeq_bool (areaQ a b k) (areaQ a b v)) || nz (areaQ a b k)) (cyc_edges V) &&
    forallb (fun q => Qle_bool (1 # 1000) q && Qle_bool q 10000 && forallb (fun q' => Qle_bool q' q || Qle_bool (1 # 1000) (q' - q)) (hits V k v)) (hits V k v)) V.
Open Scope R_scope.
Lemma leb_R p q : Qle_bool p q = true -> Q2R p <= Q2R q.
Proof. intros H. apply Qle_bool_iff, Qle_Rle in H. auto. Qed.
Lemma nz_R q : nz q = true -> Q2R q <> 0.
Proof. unfold nz. rewrite negb_true_iff. intros H E. rewrite <- RMicromega.Q2R_0 in E. apply eqR_Qeq in E. apply Qeq_bool_iff in E. congruence. Qed.
Lemma gpb_R k V : gpb k V = true -> forall v w, In v V -> In w V -> qp v <> qp w -> area2 (qp k) (qp v) (qp w) <> 0.
Proof.
  induction V as [|u V IH]; intros H v w Hv Hw N; [destruct Hv|]. cbn [gpb] in H. apply andb_true_iff in H as [H1 H2]. rewrite forallb_forall in H1.
  destruct Hv as [<-|Hv], Hw as [<-|Hw].
  - congruence.
  - rewrite areaQ_R. apply nz_R. auto.
  - rewrite area2_swap, areaQ_R. pose proof (nz_R _ (H1 v Hv)). lra.
  - auto.
Qed.
Lemma hit_R V k v t : (forall a b, In (a, b) (cyc_edges V) -> (negb (Qeq_bool (areaQ a b k) (areaQ a b v)) || nz (areaQ a b k)) = true) -> 0 < t ->
  on_ring (map qp V) (along (qp k) (qp v) t) -> exists q, In q (hits V k v) /\ t = Q2R q.
Proof.
  intros Ck Ht (a & b & He & Ho). apply cyc_map in He as (a' & b' & He & -> & ->). specialize (Ck _ _ He).
  assert (E : area2 (qp a') (qp b') (qp k) + t * (area2 (qp a') (qp b') (qp v) - area2 (qp a') (qp b') (qp k)) = 0).
  { destruct Ho as (s & Hs & Es). replace (area2 (qp a') (qp b') (qp k) + t * (area2 (qp a') (qp b') (qp v) - area2 (qp a') (qp b') (qp k))) with (area2 (qp a') (qp b') (along (qp k) (qp v) t)) by (unv; ring). rewrite Es. unv. ring. }
  rewrite !areaQ_R in E. destruct (Qeq_bool (areaQ a' b' k) (areaQ a' b' v)) eqn:Eq.
  { cbn [negb orb] in Ck. apply nz_R in Ck. apply Qeq_bool_iff, Qeq_eqR in Eq. rewrite <- Eq in E. lra. }
  assert (Nd : Q2R (areaQ a' b' k) - Q2R (areaQ a' b' v) <> 0). { intros X. assert (Y : Q2R (areaQ a' b' k) = Q2R (areaQ a' b' v)) by lra. apply eqR_Qeq, Qeq_bool_iff in Y. congruence. }
  assert (Nq : ~ (areaQ a' b' k - areaQ a' b' v == 0)%Q). { intros X. apply Qeq_eqR in X. rewrite Q2R_minus, RMicromega.Q2R_0 in X. auto. }
  assert (Et : t = Q2R (hit k v a' b')). { unfold hit. rewrite Q2R_div, Q2R_minus by auto. apply (Rmult_eq_reg_r (Q2R (areaQ a' b' k) - Q2R (areaQ a' b' v))); auto. field_simplify; auto. lra. }
  exists (hit k v a' b'). split; auto. unfold hits. apply in_flat_map. exists (a', b'). split; auto. rewrite Eq.
  assert (P1 : posb (hit k v a' b') = true) by (apply posb_R; rewrite <- Et; auto). rewrite P1.
  assert (P2 : Qle_bool (dotQ a' b' (ptQ k v (hit k v a' b'))) 0 = true).
  { apply Qle_bool_iff, Rle_Qle. rewrite RMicromega.Q2R_0. unfold dotQ, ptQ. cbn [fst snd]. rewrite !Q2R_plus, !Q2R_mult, !Q2R_minus, !Q2R_plus, !Q2R_mult, !Q2R_minus, <- Et.
    destruct Ho as (s & Hs & Es). assert (X := f_equal fst Es). assert (Y := f_equal snd Es). unfold along, vadd, smul, vsub, qp in X, Y. cbn [fst snd] in X, Y. rewrite X, Y.
    set (dx := Q2R (fst b') - Q2R (fst a')). set (dy := Q2R (snd b') - Q2R (snd a')).
    replace (Q2R (fst a') + s * dx - Q2R (fst a')) with (s * dx) by ring. replace (Q2R (fst a') + s * dx - Q2R (fst b')) with (- ((1 - s) * dx)) by (unfold dx; ring).
    replace (Q2R (snd a') + s * dy - Q2R (snd a')) with (s * dy) by ring. replace (Q2R (snd a') + s * dy - Q2R (snd b')) with (- ((1 - s) * dy)) by (unfold dy; ring).
    assert (0 <= s * (1 - s) * (dx * dx + dy * dy)) by (apply Rmult_le_pos; nra). lra. }
  rewrite P2. left. auto.
Qed.
Lemma roomyb_R V k : roomyb V k = true -> roomy (map qp V) (qp k).
Proof.
  unfold roomyb. rewrite !andb_true_iff. intros [[G Ar] Hv]. rewrite forallb_forall in Ar, Hv.
  assert (Gv : forall v, In v V -> (forall a b, In (a, b) (cyc_edges V) -> (negb (Qeq_bool (areaQ a b k) (areaQ a b v)) || nz (areaQ a b k)) = true) /\
    forall q, In q (hits V k v) -> (1 / 1000 <= Q2R q <= 10000) /\ forall q', In q' (hits V k v) -> Q2R q' <= Q2R q \/ 1 / 1000 <= Q2R q' - Q2R q).
  { intros v H. specialize (Hv v H). apply andb_true_iff in Hv as [H1 H2]. rewrite forallb_forall in H1, H2. split; [intros a b He; apply (H1 (a, b) He)|].
    intros q Hq. specialize (H2 q Hq). rewrite !andb_true_iff, forallb_forall in H2. destruct H2 as [[X Y] Z]. apply leb_R in X, Y.
    assert (E1 : Q2R (1 # 1000) = 1 / 1000) by (unfold Q2R; cbn; lra). assert (E2 : Q2R 10000 = 10000) by (unfold Q2R; cbn; lra). rewrite E1 in X. rewrite E2 in Y. split; auto.
    intros q' Hq'. specialize (Z q' Hq'). apply orb_true_iff in Z as [Z|Z]; apply leb_R in Z; [left; auto|right]. rewrite E1, Q2R_minus in Z. auto. }
  constructor.
  - intros v w H1 H2 N. apply in_map_iff in H1 as (v' & <- & H1). apply in_map_iff in H2 as (w' & <- & H2). eapply gpb_R; eauto.
  - intros a b He. apply cyc_map in He as (a' & b' & He & -> & ->). specialize (Ar _ He). cbn beta iota in Ar. rewrite areaQ_R.
    assert (E : Q2R (1 # 1000000) = 1 / 1000000) by (unfold Q2R; cbn; lra). apply orb_true_iff in Ar as [Ar|Ar]; apply posb_R in Ar; rewrite Q2R_minus, ?Q2R_opp, E in Ar; unfold TH; [rewrite Rabs_right|rewrite Rabs_left]; lra.
  - intros v t H1 H2 H3. apply in_map_iff in H1 as (v' & <- & H1). destruct (Gv v' H1) as [C1 C2]. destruct (hit_R V k v' t C1 H2 H3) as (q & Hq & ->). apply C2. auto.
  - intros v t t' H1 H2 H3 H4. apply in_map_iff in H1 as (v' & <- & H1). destruct (Gv v' H1) as [C1 C2]. destruct (hit_R V k v' t C1 ltac:(lra) H3) as (q & Hq & ->). destruct (hit_R V k v' t' C1 ltac:(lra) H4) as (q' & Hq' & ->).
    destruct (C2 q Hq) as [_ C3]. destruct (C3 q' Hq'); lra.
Qed.
