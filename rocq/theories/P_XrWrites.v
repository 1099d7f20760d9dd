(** C119: which reference points of the caller's obstacles cluster_and_starify changes. C120: the reference points do not influence the answer. *)
From Coq Require Import String Reals List Bool Arith ZArith Lia Lra Permutation.
From Verif Require Import Num Spec M_Cg M_Motion M_Obstacle M_Clusters P_Clusters M_StarHull M_Starify M_XrWrites L_Geom L_Cg L_Starify P_Starify P_StarifyResult P_StarifyTotal
  W_Starify P_StarifyRefuted.
Import ListNotations.

Section Writes.
  Context {Obs G : Type} (M : methods Obs G) (Sh : shapely G) (setl : list nat -> list nat).
  Notation cluster := (cluster Obs G).
  Notation call := (cluster_and_starify M Sh setl).

  (** *** a property of clusters kept by the rounds *)
  Section Kept.
    Variable Q : cluster -> Prop.
    Hypothesis Q_new : forall l, Q (new_cluster M l).
    Hypothesis Q_comb : forall c ms h p i, c_obstacle c = Some (Combination ms h p i) -> Q c.
    Hypothesis Q_same : forall c d, c_obstacle c = c_obstacle d -> c_kernel_points c = c_kernel_points d -> c_obstacles c = c_obstacles d -> Q c -> Q d.
    Lemma kept_read c : Q c -> Q (fst (read_polygon M Sh c)).
    Proof. apply Q_same; unfold read_polygon; destruct (c_polygon c); try reflexivity; destruct (c_obstacle c) eqn:E; cbn; congruence. Qed.
    Lemma kept_gic cls out b : has_polygons M Sh cls -> get_intersection_clusters M Sh setl cls = Val (out, b) -> Forall Q cls -> Forall Q out.
    Proof.
      intros P H F. rewrite (gic_value M Sh setl cls P) in H. destruct (intersections_exist _ _); injection H as <- <-; apply Forall_forall; intros c Hc.
      - apply in_map_iff in Hc as (p & <- & _). apply Q_new.
      - apply in_map_iff in Hc as (d & <- & Hd). rewrite Forall_forall in F. apply kept_read, F, Hd.
    Qed.
    Lemma kept_round op x xg all k n : forall todo i counter h c' h' cls, starify_round M Sh op x xg all k n i counter h todo = Val (c', h', cls, false) ->
      Forall Q todo -> Forall Q h -> Forall Q cls /\ Forall Q h'.
    Proof.
      induction todo as [|cl todo IH]; intros i counter h c' h' cls H Ft Fh; cbn [starify_round] in H; [injection H as <- <- <-; auto|].
      inversion Ft as [|? ? F1 F2]; subst. destruct (history_lookup (c_name cl) h) as [old|] eqn:L.
      - obinv H. destruct a as [[[c1 h1] cls1] q]. injection H as <- <- <- ->. destruct (IH _ _ _ _ _ _ E F2 Fh) as [A B]. split; [|exact B]. constructor; [|exact A].
        apply history_some in L as [L _]. rewrite Forall_forall in Fh. apply Fh, L.
      - obinv H. destruct a as [[c1 cl']|cl']; [|discriminate]. obinv H. destruct a as [[[c2 h2] cls2] q]. injection H as <- <- <- ->.
        assert (Qc : Q cl').
        { unfold later_cluster in E. obinvs E. destruct (vanishing Sh _); [discriminate|]. cbv zeta in E. obinvs E. destruct (set_id counter a2) as [cc oid]. injection E as <- <-. eapply Q_comb; reflexivity. }
        destruct (IH _ _ _ _ _ _ E0 F2 (Forall_cons _ Qc Fh)) as [A B]. split; [constructor; assumption|exact B].
    Qed.
    Hypothesis setl_ok : set_order setl.
    Lemma kept_rounds op x xg all k : forall f n counter h its cls ex c' n' its' out, loop_inv M Sh h cls ex -> Forall Q h -> Forall Q cls ->
      rounds M Sh setl op x xg all k f n counter h its cls ex = Val (Finished c' n' its' out) -> Forall Q out.
    Proof.
      induction f as [|f IH]; intros n counter h its cls ex c' n' its' out I Fh Fc H; cbn [rounds] in H; (destruct ex; [|injection H as <- <- <- <-; exact Fc]); [discriminate|].
      destruct (op_late op (AtRound n)); [discriminate|]. obinv H. destruct a as [[[c1 h1] cls1] q]. destruct q; [discriminate|]. obinv H. destruct a as [out1 b].
      destruct I as (D & N & L0). destruct (round_inv M Sh setl setl_ok _ _ _ _ _ _ _ _ _ _ _ _ _ _ E N D E0) as (I' & D1 & _ & _).
      destruct (kept_round _ _ _ _ _ _ _ _ _ _ _ _ _ E Fc Fh) as [Fc1 Fh1]. pose proof (kept_gic cls1 out1 b (done_has M Sh _ D1) E0 Fc1) as Fo.
      destruct (match op_max_iterations op with Some m0 => (m0 <=? S n)%nat | None => false end); [injection H as <- <- <- <-; exact Fo|].
      apply (IH _ _ _ _ _ _ _ _ _ _ I' Fh1 Fo H).
    Qed.
  End Kept.

  (** *** the writes *)
  (** the kernel points [kp] were chosen for o alone and the hull they ask for is empty *)
  Definition set_for (o : Obs) (p : RPt) : Prop :=
    is_star_class (ob_class M o) = true /\ exists kp, kernel_starshaped_hull M Sh [o] kp = Val None /\ p = triangle_mean kp.
  Lemma first_write op x xg k counter i o c cl : first_cluster M Sh op x xg k counter i o = Val (c, cl) ->
    c_obstacles cl = [o] /\
    ((exists kp, c_obstacle cl = Some (Original o (Some (triangle_mean kp))) /\ c_kernel_points cl = Some kp /\ is_star_class (ob_class M o) = true /\ kernel_starshaped_hull M Sh [o] kp = Val None) \/
     (exists kp h oid, c_obstacle cl = Some (Combination [o] (Some h) (triangle_mean kp) oid) /\ kernel_starshaped_hull M Sh [o] kp = Val (Some h))).
  Proof.
    unfold first_cluster. intros H. obinvs H. destruct a5 as [h|].
    - destruct (set_id counter a4) as [c' oid]. injection H as <- <-. cbn. split; [reflexivity|]. right. eauto 6.
    - destruct (is_star_class (ob_class M o)) eqn:S; [|discriminate]. injection H as <- <-. cbn. split; [reflexivity|]. left. eauto 6.
  Qed.
  Lemma writes_spec op x xg k : forall obs counter i e, In e (first_writes M Sh op x xg k counter i obs) -> In (fst e) obs /\ set_for (fst e) (snd e).
  Proof.
    induction obs as [|o obs IH]; intros counter i e H; cbn [first_writes] in H; [destruct H|].
    destruct (first_cluster M Sh op x xg k counter i o) as [[c cl]| |] eqn:E; [|destruct H|destruct H]. apply in_app_iff in H as [H|H].
    - destruct (first_write _ _ _ _ _ _ _ _ _ E) as [_ [(kp & Eo & _ & S & Hh)|(kp & h & oid & Eo & _)]]; unfold xr_write in H; rewrite Eo in H; [|destruct H].
      destruct H as [<-|[]]. cbn. split; [left; reflexivity|]. split; [exact S|]. eauto.
    - destruct (IH _ _ _ H) as [A B]. split; [right; exact A|exact B].
  Qed.
  Lemma writes_NoDup op x xg k : forall obs counter i, NoDup obs -> NoDup (map fst (first_writes M Sh op x xg k counter i obs)).
  Proof.
    induction obs as [|o obs IH]; intros counter i N; cbn [first_writes]; [constructor|]. inversion N as [|? ? N1 N2]; subst.
    destruct (first_cluster M Sh op x xg k counter i o) as [[c cl]| |] eqn:E; [|constructor|constructor]. rewrite map_app.
    destruct (first_write _ _ _ _ _ _ _ _ _ E) as [_ [(kp & Eo & _)|(kp & h & oid & Eo & _)]]; unfold xr_write; rewrite Eo; cbn [map app fst]; [|apply IH; exact N2].
    constructor; [|apply IH; exact N2]. intros Hi. apply in_map_iff in Hi as (e & Ee & He). apply writes_spec in He as [He _]. rewrite Ee in He. contradiction.
  Qed.
  Lemma writes_clusters op x xg k : forall obs counter i c cls, first_clusters M Sh op x xg k counter i obs = Val (c, cls) ->
    first_writes M Sh op x xg k counter i obs = flat_map (xr_write (G := G)) cls.
  Proof.
    induction obs as [|o obs IH]; intros counter i c cls H; cbn [first_clusters] in H; [injection H as <- <-; reflexivity|].
    obinv H. destruct a as [c1 cl]. obinv H. destruct a as [c2 cls']. injection H as <- <-. cbn [first_writes flat_map]. rewrite E, (IH _ _ _ _ E0). reflexivity.
  Qed.

  Variable same : Obs -> Obs -> bool.
  Hypothesis same_ok : forall a b, same a b = true <-> a = b.
  Notation after := (xr_after M same).
  Lemma after_cases w o : (exists p, In (o, p) w /\ after w o = p) \/ (~ In o (map fst w) /\ after w o = ob_xr M o).
  Proof.
    unfold xr_after. destruct (find _ (rev w)) as [[o' p]|] eqn:E.
    - left. apply find_some in E as [E1 E2]. cbn in E2. apply same_ok in E2 as <-. exists p. split; [apply in_rev, E1|reflexivity].
    - right. split; [|reflexivity]. intros H. apply in_map_iff in H as ([o' p] & Eo & H). cbn in Eo. subst o'.
      assert (X := find_none _ _ E (o, p) (proj1 (in_rev _ _) H)). cbn in X. assert (Y : same o o = true) by (apply same_ok; reflexivity). congruence.
  Qed.
  Lemma after_in w o p : NoDup (map fst w) -> In (o, p) w -> after w o = p.
  Proof.
    intros N H. destruct (after_cases w o) as [(q & Hq & E)|[X _]]; [|exfalso; apply X; apply (in_map fst) in H; exact H]. rewrite E.
    clear - N H Hq. induction w as [|[a r] w IH]; [destruct H|]. inversion N as [|? ? N1 N2]; subst. cbn in N1.
    destruct H as [H|H], Hq as [Hq|Hq]; [congruence| | |apply IH; assumption]; exfalso; apply N1; [injection H as -> ->; apply (in_map fst) in Hq; exact Hq|injection Hq as -> ->; apply (in_map fst) in H; exact H].
  Qed.

  (** whatever the call does, also when it raises: an obstacle keeps its reference point, or it is set to the centre of kernel points for which its own hull adds nothing *)
  Theorem C119_changes : forall op counter x xg obs o,
    after (call_writes M Sh op counter x xg obs) o = ob_xr M o \/
    (In o obs /\ ob_class M o <> CPolygon /\ exists kp, kernel_starshaped_hull M Sh [o] kp = Val None /\ after (call_writes M Sh op counter x xg obs) o = triangle_mean kp).
  Proof.
    intros op counter x xg obs o. destruct (after_cases (call_writes M Sh op counter x xg obs) o) as [(p & H & E)|[_ E]]; [|left; exact E]. right. rewrite E. clear E.
    unfold call_writes in H. cbv zeta in H. destruct (prepare M Sh op x xg obs 0 obs (Cones [] [] [])) as [[k|]| |]; try (destruct H).
    apply writes_spec in H as [A [B (kp & C & D)]]. cbn [fst snd] in *. split; [exact A|]. split; [intros Cp; rewrite Cp in B; discriminate|]. exists kp. auto.
  Qed.

  (** nothing is changed by a call that gives up before the first round *)
  Theorem C119_gives_up : forall op fuel counter x xg obs a o, call op fuel counter x xg obs = Val a -> a_iter a = 0%nat -> after (call_writes M Sh op counter x xg obs) o = ob_xr M o.
  Proof.
    intros op fuel counter x xg obs a o H It. unfold cluster_and_starify in H. obinv H. unfold call_writes. cbv zeta. rewrite E. destruct a0 as [k|]; [exfalso|reflexivity].
    obinv H. destruct a0 as [c1 cls]. cbv zeta in H. obinv H. destruct a0 as [out b]. obinv H.
    assert (Q : forall f n counter h its cls ex e, rounds M Sh setl op x xg obs k f n counter h its cls ex = Val e -> (n <= match e with Stopped _ n' _ => n' | Finished _ n' _ _ => n' end)%nat).
    { clear. induction f as [|f IH]; intros n counter h its cls ex e H; cbn [rounds] in H; (destruct ex; [|injection H as <-; lia]); [discriminate|].
      destruct (op_late op (AtRound n)); [injection H as <-; lia|]. obinv H. destruct a as [[[c1 h1] cls1] q]. destruct q; [injection H as <-; lia|]. obinv H. destruct a as [out1 b].
      destruct (match op_max_iterations op with Some m0 => (m0 <=? S n)%nat | None => false end); [injection H as <-; lia|]. apply IH in H. destruct e; lia. }
    apply Q in E2. destruct a0 as [c2 n its'|c2 n its' cls2].
    - injection H as <-. cbn [default_result a_iter] in It. lia.
    - destruct (op_make_convex op).
      + obinv H. destruct a0 as [[c3 t] cls3]. destruct t; injection H as <-; cbn [a_iter] in It; lia.
      + injection H as <-. cbn [a_iter] in It. lia.
  Qed.

  Hypothesis setl_ok : set_order setl.
  Hypothesis symmetric : forall p q, sh_intersects Sh p q = sh_intersects Sh q p.
  (** the answer agrees with what is left behind: a cluster that consists of an obstacle of the caller has this obstacle with the reference point it says, the centre of its kernel points *)
  Definition agrees (w : list (Obs * RPt)) (c : cluster) : Prop :=
    forall o xr, c_obstacle c = Some (Original o xr) -> c_obstacles c = [o] /\ forall p, xr = Some p -> In (o, p) w /\ exists kp, c_kernel_points c = Some kp /\ p = triangle_mean kp.
  Lemma agrees_firsts op x xg k : forall obs counter i c cls, first_clusters M Sh op x xg k counter i obs = Val (c, cls) -> Forall (agrees (first_writes M Sh op x xg k counter i obs)) cls.
  Proof.
    intros obs counter i c cls H. rewrite (writes_clusters _ _ _ _ _ _ _ _ _ H).
    assert (X : Forall (fun cl => c_obstacles cl = match c_obstacle cl with Some (Original o _) => [o] | _ => c_obstacles cl end /\
                  match c_obstacle cl with Some (Original o xr) => exists kp, xr = Some (triangle_mean kp) /\ c_kernel_points cl = Some kp | _ => True end) cls).
    { revert counter i c cls H. induction obs as [|o obs IH]; intros counter i c cls H; cbn [first_clusters] in H; [injection H as <- <-; constructor|].
      obinv H. destruct a as [c1 cl]. obinv H. destruct a as [c2 cls']. injection H as <- <-. constructor; [|apply (IH _ _ _ _ E0)].
      destruct (first_write _ _ _ _ _ _ _ _ _ E) as [A [(kp & Eo & Ek & _)|(kp & h & oid & Eo & _)]]; rewrite Eo; [split; [exact A|exists kp; auto]|auto]. }
    apply Forall_forall. intros cl Hc. rewrite Forall_forall in X. destruct (X cl Hc) as [A B]. intros o xr Eo. rewrite Eo in A, B. split; [exact A|]. intros p ->.
    destruct B as (kp & Ep & Ek). injection Ep as ->. split; [|eauto]. apply in_flat_map. exists cl. split; [exact Hc|]. unfold xr_write. rewrite Eo. left. reflexivity.
  Qed.
  Theorem C119_answer_agrees : forall op fuel counter x xg obs a c o xr, call op fuel counter x xg obs = Val a -> a_flag a <> INCOMPLETE -> uncut op a -> NoDup obs ->
    In c (a_clusters a) -> c_obstacle c = Some (Original o xr) ->
    exists kp, c_kernel_points c = Some kp /\ xr = Some (triangle_mean kp) /\ after (call_writes M Sh op counter x xg obs) o = triangle_mean kp /\ In o obs /\ c_obstacles c = [o].
  Proof.
    intros op fuel counter x xg obs a c o xr H Fl Un Nd Hc Eo. pose proof H as H0. unfold cluster_and_starify in H. obinv H. destruct a0 as [k|]; [|injection H as <-; cbn in Fl; congruence].
    assert (W : call_writes M Sh op counter x xg obs = first_writes M Sh op x xg k (match op_workspace op with Some _ => counter | None => (counter + 1)%Z end) 0 obs) by (unfold call_writes; rewrite E; reflexivity).
    rewrite W. clear W. set (c0 := match op_workspace op with Some _ => counter | None => (counter + 1)%Z end) in *. clearbody c0. set (w := first_writes M Sh op x xg k c0 0 obs).
    obinv H. destruct a0 as [c1 cls]. cbv zeta in H. obinv H. destruct a0 as [out b]. obinv H. destruct a0 as [c2 n its'|c2 n its' cls2]; [injection H as <-; cbn in Fl; congruence|].
    destruct (first_inv M Sh setl setl_ok _ _ _ _ _ _ _ _ _ _ E0 E1) as (D & Ln & I & _). pose proof (agrees_firsts _ _ _ _ _ _ _ _ _ E0 : Forall (agrees w) cls) as Fw.
    assert (Qn : forall l, agrees w (new_cluster M l)) by (intros l o' xr' X; cbn in X; destruct l as [|o1 [|]]; try discriminate; injection X as <- <-; split; [reflexivity|discriminate]).
    assert (Qc : forall c ms h p i, c_obstacle c = Some (Combination ms h p i) -> agrees w c) by (intros ? ? ? ? ? X o' xr' Y; congruence).
    assert (Qs : forall c d, c_obstacle c = c_obstacle d -> c_kernel_points c = c_kernel_points d -> c_obstacles c = c_obstacles d -> agrees w c -> agrees w d).
    { intros c' d' X Y Z V o' xr' U. rewrite <- Y, <- Z. apply V. congruence. }
    assert (F2 : Forall (agrees w) cls2).
    { apply (kept_rounds (agrees w) Qn Qc Qs setl_ok op x xg obs k fuel 1 c1 (rev cls) (if op_return_history op then [cls] else []) out b c2 n its' cls2 I); [apply Forall_rev, Fw| |exact E2].
      apply (kept_gic (agrees w) Qn Qs cls out b (done_has M Sh cls D) E1 Fw). }
    assert (Xn : xr <> None).
    { apply In_nth_error in Hc as [j Hj]. destruct (call_done M Sh setl setl_ok symmetric _ _ _ _ _ _ _ H0 Fl Un j c Hj) as (cl2 & c' & Dn & _ & Hj' & _ & F3 & _).
      destruct (F3 j c' c Hj' Hj) as (_ & _ & _ & _ & _ & [Ob|(g & h & p & d & Ob & _)]); [|congruence].
      rewrite Forall_forall in Dn. destruct (Dn c' (nth_error_In _ _ Hj')) as [_ _ _ Dx]. intros ->. apply (Dx o). congruence. }
    assert (Ea : agrees w c).
    { apply In_nth_error in Hc as [j Hj]. rewrite Forall_forall in F2. destruct (op_make_convex op) eqn:Mc.
      - obinv H. destruct a0 as [[c3 t] cls3].
        assert (Ex : a_clusters a = cls3) by (destruct t; injection H as <-; reflexivity).
        rewrite Ex in Hj. destruct (convexify_top M Sh _ _ _ _ _ _ _ _ E3) as [L F3].
        assert (exists c', nth_error cls2 j = Some c') as [c' Hj'].
        { destruct (nth_error cls2 j) eqn:X; [eauto|]. apply nth_error_None in X. assert (j < List.length cls3)%nat by (apply nth_error_Some; congruence). lia. }
        destruct (F3 j c' c Hj' Hj) as (M1 & M2 & M3 & _ & _ & [Ob|(g & h & p & d & Ob & _)]); [|congruence].
        apply (Qs c' c); [congruence|congruence|congruence|]. apply F2. apply nth_error_In in Hj'. exact Hj'.
      - injection H as <-. cbn [a_clusters] in Hj. apply F2. apply nth_error_In in Hj. exact Hj. }
    destruct (Ea o xr Eo) as [Eobs P]. destruct xr as [p|]; [|congruence]. destruct (P p eq_refl) as [Hw (kp & Ek & ->)]. exists kp. split; [exact Ek|]. split; [reflexivity|].
    split; [apply after_in; [apply writes_NoDup; exact Nd|exact Hw]|]. split; [apply writes_spec in Hw as [Hw _]; exact Hw|exact Eobs].
  Qed.
End Writes.
Print Assumptions C119_changes.
Print Assumptions C119_gives_up.
Print Assumptions C119_answer_agrees.

(** *** what is not true *)
Definition elsewhere : Z -> RPt := fun _ => (5, 5)%R.
Definition chain_xr : methods Z (list Z) := with_xr chain_world elsewhere.
Definition late_round (m : moment) : bool := match m with AtRound _ => true | _ => false end.
Lemma level_elsewhere n : level n <> (5, 5)%R.
Proof. unfold level. intros H. injection H as H _. lra. Qed.
Lemma chain_firsts late mi hist counter :
  first_writes chain_xr plane (toy_options None late false false mi hist) Ox Og
    (Cones (map (fun o => (Some o, Kc Ox)) (rev [1; 2; 3]%Z) ++ []) (map (fun o => (Some o, Kc Og)) (rev [1; 2; 3]%Z) ++ []) []) counter 0 [1; 2; 3]%Z
  = [(1, level 1); (2, level 1); (3, level 1)]%Z.
Proof.
  erewrite writes_clusters; [|exact (run_firsts star_class (@Some Z) chain_cells no_hull chain_hull (fun g => g) (fun _ => eq_refl) late false mi hist [1; 2; 3]%Z [1; 2; 3]%Z counter 0%nat (fun o H => in_map _ _ _ H))].
  generalize KP, level. intros kp lv. reflexivity.
Qed.
Lemma chain_prepared late mi hist : (forall i, late (AtObstacle i) = false) ->
  prepare chain_xr plane (toy_options None late false false mi hist) Ox Og [1; 2; 3]%Z 0 [1; 2; 3]%Z (Cones [] [] []) =
  Val (Some (Cones (map (fun o => (Some o, Kc Ox)) (rev [1; 2; 3]%Z) ++ []) (map (fun o => (Some o, Kc Og)) (rev [1; 2; 3]%Z) ++ []) [])).
Proof.
  intros L. exact (toy_prepare star_class (@Some Z) chain_cells no_hull chain_hull (fun g => g) (toy_options None late false false mi hist) [1; 2; 3]%Z eq_refl L [1; 2; 3]%Z 0%nat (Cones [] [] [])).
Qed.

(** a call that gives up later returns the obstacles as they came, but with other reference points *)
Theorem C119_incomplete_refuted : exists (M : methods Z (list Z)) Sh setl op fuel counter x xg obs a o,
  set_order setl /\ (forall p q, sh_intersects Sh p q = sh_intersects Sh q p) /\ cluster_and_starify M Sh setl op fuel counter x xg obs = Val a /\ a_flag a = INCOMPLETE /\
  In o obs /\ xr_after M Z.eqb (call_writes M Sh op counter x xg obs) o <> ob_xr M o.
Proof.
  exists chain_xr, plane, dedup, (toy_options None late_round false false None false), 3%nat, 3%Z, Ox, Og, [1; 2; 3]%Z,
    (default_result chain_xr (toy_options None late_round false false None false) [1; 2; 3]%Z 1 [] 3%Z), 1%Z.
  split; [exact dedup_ok|]. split; [exact share_cell_sym|]. split; [|split; [|split; [left; reflexivity|]]].
  - unfold cluster_and_starify. rewrite chain_prepared by reflexivity. cbn [obind]. cbv zeta. cbn [op_workspace toy_options].
    pose proof (run_firsts star_class (@Some Z) chain_cells no_hull chain_hull (fun g => g) (fun _ => eq_refl) late_round false None false [1; 2; 3]%Z [1; 2; 3]%Z 3%Z 0%nat (fun o H => in_map _ _ _ H)) as F.
    match type of F with _ = ?r => match goal with |- obind ?e _ = _ => replace e with r by (symmetry; exact F) end end. clear F. generalize KP, level. intros kp lv. vm_compute. reflexivity.
  - reflexivity.
  - unfold call_writes. rewrite chain_prepared by reflexivity. cbv zeta. rewrite chain_firsts. cbn [xr_after rev app find fst snd Z.eqb Pos.eqb]. apply level_elsewhere.
Qed.
Print Assumptions C119_incomplete_refuted.
(** a call that succeeds changes also the obstacles it puts into a larger cluster, where the cluster obstacle is another object *)
Theorem C119_clustered_refuted : exists (M : methods Z (list Z)) Sh setl op fuel counter x xg obs a,
  set_order setl /\ (forall p q, sh_intersects Sh p q = sh_intersects Sh q p) /\ cluster_and_starify M Sh setl op fuel counter x xg obs = Val a /\ a_flag a = COMPLETE /\ obs <> [] /\
  (forall c o xr, In c (a_clusters a) -> c_obstacle c <> Some (Original o xr)) /\
  forall o, In o obs -> xr_after M Z.eqb (call_writes M Sh op counter x xg obs) o <> ob_xr M o.
Proof.
  exists chain_xr, plane, dedup, (toy_options None never false false None false), 3%nat, 3%Z, Ox, Og, [1; 2; 3]%Z.
  assert (E : cluster_and_starify chain_xr plane dedup (toy_options None never false false None false) 3 3 Ox Og [1; 2; 3]%Z = chain_call never false None false) by reflexivity.
  rewrite E. clear E. rewrite (chain_run _ _ _ _ _ eq_refl eq_refl). unfold call_writes. rewrite chain_prepared by reflexivity. cbv zeta. rewrite chain_firsts.
  pose proof level_elsewhere as Hl. revert Hl. generalize KP, level. intros kp lv Hl. eexists.
  split; [exact dedup_ok|]. split; [exact share_cell_sym|]. split; [vm_compute; reflexivity|]. split; [reflexivity|]. split; [discriminate|]. split.
  - intros c o xr [<-|[]]. discriminate.
  - intros o [<-|[<-|[<-|[]]]]; cbn [xr_after rev app find fst snd Z.eqb Pos.eqb]; apply Hl.
Qed.
Print Assumptions C119_clustered_refuted.
(** a call that raises has changed the obstacles before the one it failed at: here the previous answer is one of a call that gave up *)
Definition gave_up : option (list (cluster Z (list Z))) := Some [new_cluster chain_world [2]%Z].
Theorem C119_raise_refuted : exists (M : methods Z (list Z)) Sh setl op fuel counter x xg obs e o,
  set_order setl /\ cluster_and_starify M Sh setl op fuel counter x xg obs = Raise e /\ In o obs /\
  xr_after M Z.eqb (call_writes M Sh op counter x xg obs) o <> ob_xr M o.
Proof.
  set (op := toy_options gave_up never false false None false). exists chain_xr, plane, dedup, op, 2%nat, 2%Z, Ox, Og, [1; 2]%Z, ValueErr, 1%Z.
  set (K := Cones (map (fun o => (Some o, Kc Ox)) (rev [1; 2]%Z) ++ []) (map (fun o => (Some o, Kc Og)) (rev [1; 2]%Z) ++ []) (@nil (option Z * option Z * option (list Z)))).
  assert (P : prepare chain_xr plane op Ox Og [1; 2]%Z 0 [1; 2]%Z (Cones [] [] []) = Val (Some K))
    by exact (toy_prepare star_class (@Some Z) chain_cells no_hull chain_hull (fun g => g) op [1; 2]%Z eq_refl (fun _ => eq_refl) [1; 2]%Z 0%nat (Cones [] [] [])).
  assert (F1 : first_cluster chain_xr plane op Ox Og K 2 0 1%Z = Val (first_toy (@Some Z) no_hull 2 1%Z))
    by exact (toy_first star_class (@Some Z) chain_cells no_hull chain_hull (fun g => g) (fun _ => eq_refl) op K 2%Z 0%nat 1%Z eq_refl (fun _ _ => eq_refl) eq_refl eq_refl eq_refl).
  assert (F2 : first_cluster chain_xr plane op Ox Og K 2 1 2%Z = Raise ValueErr) by reflexivity.
  split; [exact dedup_ok|]. split; [|split; [left; reflexivity|]].
  - unfold cluster_and_starify. rewrite P. cbn [obind op_workspace op toy_options]. fold op. cbv zeta. cbn [first_clusters]. rewrite F1. cbn [first_toy no_hull obind]. rewrite F2. reflexivity.
  - unfold call_writes. rewrite P. cbn [op_workspace op toy_options]. fold op. cbv zeta. cbn [first_writes]. rewrite F1. cbn [first_toy no_hull]. rewrite F2.
    cbn [xr_write c_obstacle app xr_after rev find fst snd Z.eqb Pos.eqb]. apply level_elsewhere.
Qed.
Print Assumptions C119_raise_refuted.
(** two obstacles apart: the call succeeds, each is its own cluster with the new reference point *)
Example C119_example : exists op a c, op_previous op = None /\ cluster_and_starify chain_xr plane dedup op 3 3 Ox Og [1; 3]%Z = Val a /\ a_flag a <> INCOMPLETE /\ uncut op a /\ NoDup [1; 3]%Z /\
  In c (a_clusters a) /\ c_obstacle c = Some (Original 3%Z (Some (level 1))).
Proof.
  exists (toy_options None never false false None false).
  assert (E : cluster_and_starify chain_xr plane dedup (toy_options None never false false None false) 3 3 Ox Og [1; 3]%Z =
    run star_class (@Some Z) chain_cells no_hull chain_hull (fun g => g) KP level never false None false 3 3 [1; 3]%Z) by (rewrite <- run_ok by reflexivity; reflexivity).
  rewrite E. clear E. generalize KP, level. intros kp lv. do 2 eexists. split; [reflexivity|]. split; [vm_compute; reflexivity|]. split; [discriminate|].
  split; [intros m H; discriminate|]. split; [repeat constructor; cbn; intuition lia|]. split; [right; left; reflexivity|reflexivity].
Qed.

(** *** C120 *)
Section Irrelevant.
  Context {Obs G : Type} (M : methods Obs G) (Sh : shapely G) (setl : list nat -> list nat) (f : Obs -> RPt).
  Hypothesis setl_ok : set_order setl.
  Hypothesis symmetric : forall p q, sh_intersects Sh p q = sh_intersects Sh q p.
  Lemma convexify_xr op x xg : forall todo counter before, (forall c o, In c todo -> c_obstacle c <> Some (Original o None)) ->
    convexify (with_xr M f) Sh op x xg counter before todo = convexify M Sh op x xg counter before todo.
  Proof.
    induction todo as [|cl todo IH]; intros counter before N; cbn [convexify]; [reflexivity|].
    assert (N' : forall c o, In c todo -> c_obstacle c <> Some (Original o None)) by (intros; apply N; right; assumption).
    assert (N0 := fun o => N cl o (or_introl eq_refl)). destruct (c_obstacle cl) as [ob|] eqn:Ob; [|reflexivity].
    change (obst_is_convex (with_xr M f) Sh op ob) with (obst_is_convex M Sh op ob). destruct (obst_is_convex M Sh op ob); [apply IH; exact N'|].
    destruct (op_late op _); [reflexivity|]. change (read_polygon (with_xr M f) Sh cl) with (read_polygon M Sh cl). destruct (read_polygon M Sh cl) as [cl1 [g|]]; [|reflexivity].
    destruct (of_res (sh_convex_hull Sh g)) as [hull| |]; cbn [obind]; [|reflexivity|reflexivity].
    change (fun c : cluster Obs G => polygons_meet Sh (Some hull) (polygon_of (with_xr M f) Sh c)) with (fun c : cluster Obs G => polygons_meet Sh (Some hull) (polygon_of M Sh c)).
    destruct (negb _ && negb _); [|apply IH; exact N'].
    assert (E : obst_xr (with_xr M f) ob = obst_xr M ob) by (destruct ob as [o [p|]| |]; [reflexivity|destruct (N0 o eq_refl)|reflexivity|reflexivity]). rewrite E.
    destruct (obst_xr M ob); cbn [obind]; [|reflexivity|reflexivity]. destruct (set_id counter IdNew). apply IH; exact N'.
  Qed.
  (** the answer of a call without max_iterations, or without make_convex, is the same whatever reference points the obstacles had; so a second call is not
      affected by what the first one has left in the obstacles *)
  Theorem C120_reference_points_ignored : forall op fuel counter x xg obs, op_make_convex op = false \/ op_max_iterations op = None ->
    cluster_and_starify (with_xr M f) Sh setl op fuel counter x xg obs = cluster_and_starify M Sh setl op fuel counter x xg obs.
  Proof.
    intros op fuel counter x xg obs H. unfold cluster_and_starify.
    change (prepare (with_xr M f) Sh) with (prepare M Sh). destruct (prepare M Sh op x xg obs 0 obs (Cones [] [] [])) as [[k|]| |]; cbn [obind]; try reflexivity.
    change (first_clusters (with_xr M f) Sh) with (first_clusters M Sh). set (c0 := match op_workspace op with Some _ => counter | None => (counter + 1)%Z end). clearbody c0.
    destruct (first_clusters M Sh op x xg k c0 0 obs) as [[c1 cls]| |] eqn:F; cbn [obind]; try reflexivity. cbv zeta.
    change (get_intersection_clusters (with_xr M f) Sh setl) with (get_intersection_clusters M Sh setl). destruct (get_intersection_clusters M Sh setl cls) as [[out b]| |] eqn:Gc; cbn [obind]; try reflexivity.
    change (rounds (with_xr M f) Sh setl) with (rounds M Sh setl). destruct (rounds M Sh setl op x xg obs k fuel 1 c1 (rev cls) _ out b) as [[c2 n its'|c2 n its' cls2]| |] eqn:R; cbn [obind]; try reflexivity.
    destruct (op_make_convex op) eqn:Mc; [|reflexivity]. destruct H as [H|H]; [discriminate|].
    destruct (finished_done M Sh setl setl_ok symmetric _ _ _ _ _ _ _ _ _ _ _ _ _ _ _ _ F Gc R) as [D _]; [intros m Em; congruence|].
    rewrite convexify_xr; [reflexivity|]. intros c o Hc. rewrite Forall_forall in D. apply (D c Hc).
  Qed.
End Irrelevant.
Print Assumptions C120_reference_points_ignored.
(** calling again after the first call, with the reference points it has left behind *)
Example C120_example : exists op a, op_make_convex op = false /\
  cluster_and_starify chain_xr plane dedup op 3 3 Ox Og [1; 2; 3]%Z = Val a /\ a_flag a = COMPLETE /\
  cluster_and_starify (with_xr chain_xr (xr_after chain_xr Z.eqb (call_writes chain_xr plane op 3 Ox Og [1; 2; 3]%Z))) plane dedup op 3 3 Ox Og [1; 2; 3]%Z = Val a.
Proof.
  exists (toy_options None never false false None false).
  rewrite (C120_reference_points_ignored chain_xr plane dedup _ dedup_ok share_cell_sym) by (left; reflexivity).
  assert (E : cluster_and_starify chain_xr plane dedup (toy_options None never false false None false) 3 3 Ox Og [1; 2; 3]%Z = chain_call never false None false) by reflexivity.
  rewrite E. clear E. rewrite (chain_run _ _ _ _ _ eq_refl eq_refl). generalize KP, level. intros kp lv. eexists. split; [reflexivity|]. split; [vm_compute; reflexivity|]. split; reflexivity.
Qed.
