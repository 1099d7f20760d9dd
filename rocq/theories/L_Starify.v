(** Lemmas about cluster_and_starify. *)
From Coq Require Import String Reals List Bool Arith ZArith Lia Lra Permutation.
From Verif Require Import Num Spec M_Cg M_Motion M_Obstacle M_Clusters L_Clusters P_Clusters M_StarHull M_Starify.
Import ListNotations.

Lemma obind_val {A B} (o : outcome A) (f : A -> outcome B) b : obind o f = Val b -> exists a, o = Val a /\ f a = Val b.
Proof. destruct o; cbn; [eauto|discriminate|discriminate]. Qed.
Lemma of_res_val {A} (r : res A) a : of_res r = Val a -> r = Ret a.
Proof. destruct r; cbn; congruence. Qed.
Ltac obinv H := let a := fresh "a" in let E := fresh "E" in apply obind_val in H as (a & E & H).
Ltac obinvs H := repeat obinv H.

Lemma name_eqb_true a b : String.eqb a b = true <-> a = b.
Proof. apply String.eqb_eq. Qed.

Section S.
  Context {Obs G : Type} (M : methods Obs G) (Sh : shapely G) (setl : list nat -> list nat).
  Hypothesis setl_ok : forall l, NoDup (setl l) /\ forall x, In x (setl l) <-> In x l.
  Notation cluster := (cluster Obs G).
  Notation gic := (get_intersection_clusters M Sh setl).

  (* a cluster after starification *)
  Record done (c : cluster) : Prop := {
    d_name : c_name c = name_of (map (ob_id M) (c_obstacles c));
    d_kp : c_kernel_points c <> None;
    d_obst : exists ob, c_obstacle c = Some ob /\ (c_polygon c = None \/ c_polygon c = Some (obst_polygon M Sh ob));
    d_xr : forall o, c_obstacle c <> Some (Original o None) }.

  Lemma done_polygon c : done c -> exists ob, c_obstacle c = Some ob /\ polygon_of M Sh c = Some (obst_polygon M Sh ob).
  Proof.
    intros [_ _ (ob & E & H) _]. exists ob. split; [exact E|]. unfold polygon_of, read_polygon. destruct H as [->| ->]; [rewrite E|]; reflexivity.
  Qed.
  Lemma done_has cls : Forall done cls -> has_polygons M Sh cls.
  Proof. intros F c Hc. rewrite Forall_forall in F. destruct (done_polygon c (F c Hc)) as (ob & _ & ->). discriminate. Qed.
  Lemma done_read c : done c -> done (fst (read_polygon M Sh c)).
  Proof.
    intros [Nm K (ob & E & H) X]. unfold read_polygon. destruct H as [P|P]; rewrite P; [rewrite E|]; cbn; constructor; cbn; auto; try (exists ob; auto). rewrite <- E. exact X.
  Qed.

  Lemma polygon_of_read c : polygon_of M Sh (fst (read_polygon M Sh c)) = polygon_of M Sh c.
  Proof.
    destruct (c_polygon c) as [g|] eqn:Q; [|destruct (c_obstacle c) as [ob|] eqn:Q'].
    - assert (E : read_polygon M Sh c = (c, Some g)) by (unfold read_polygon; rewrite Q; reflexivity). rewrite E. reflexivity.
    - unfold polygon_of at 2. unfold read_polygon. rewrite Q, Q'. reflexivity.
    - assert (E : read_polygon M Sh c = (c, None)) by (unfold read_polygon; rewrite Q, Q'; reflexivity). rewrite E. reflexivity.
  Qed.

  (** *** first iteration *)
  Lemma first_cluster_spec op x xg k counter i o r : first_cluster M Sh op x xg k counter i o = Val r ->
    c_obstacles (snd r) = [o] /\ done (snd r).
  Proof.
    unfold first_cluster. intros H. obinvs H. destruct a5 as [h|].
    - destruct (set_id counter a4) as [c' oid]. injection H as <-. cbn. split; [reflexivity|]. constructor; cbn; [reflexivity|discriminate|eauto|discriminate].
    - destruct (is_star_class (ob_class M o)); [|discriminate]. injection H as <-. cbn. split; [reflexivity|].
      constructor; cbn; [reflexivity|discriminate|eauto|discriminate].
  Qed.
  Lemma first_clusters_spec op x xg k : forall obs counter i r, first_clusters M Sh op x xg k counter i obs = Val r ->
    map c_obstacles (snd r) = map (fun o => [o]) obs /\ Forall done (snd r).
  Proof.
    induction obs as [|o obs IH]; intros counter i r H; cbn in H; [injection H as <-; cbn; auto|].
    obinv H. destruct a as [c1 cl]. obinv H. destruct a as [c2 cls]. injection H as <-. cbn [snd].
    apply first_cluster_spec in E as [A B]. apply IH in E0 as [C D]. cbn [snd] in *. split; [cbn; rewrite A, C; reflexivity|constructor; assumption].
  Qed.

  (** *** rounds *)
  Lemma later_cluster_spec op x xg all k n i counter cl r : later_cluster M Sh op x xg all k n i counter cl = Val (inl r) ->
    c_name cl = name_of (map (ob_id M) (c_obstacles cl)) ->
    c_obstacles (snd r) = c_obstacles cl /\ c_name (snd r) = c_name cl /\ done (snd r).
  Proof.
    unfold later_cluster. intros H Nm. obinvs H. destruct (vanishing Sh _); [discriminate|]. cbv zeta in H. obinvs H.
    destruct (set_id counter a2) as [c' oid]. injection H as <-. cbn. split; [reflexivity|]. split; [reflexivity|].
    constructor; cbn; [exact Nm|discriminate|eauto|discriminate].
  Qed.
  Definition named (c : cluster) : Prop := c_name c = name_of (map (ob_id M) (c_obstacles c)).
  Lemma history_some name h (c : cluster) : history_lookup name h = Some c -> In c h /\ c_name c = name.
  Proof. unfold history_lookup. intros H. apply find_some in H as [A B]. apply name_eqb_true in B. auto. Qed.

  Lemma round_spec op x xg all k n : forall todo i counter h r, starify_round M Sh op x xg all k n i counter h todo = Val r ->
    Forall named todo -> Forall done h ->
    let '(c', h', cls, quit) := r in
    Forall done h' /\ List.length cls = List.length todo /\ (quit = false -> Forall done cls) /\
    (quit = false -> Forall2 (fun a b => c_name a = c_name b) todo cls).
  Proof.
    induction todo as [|cl todo IH]; intros i counter h r H Nm D; cbn in H; [injection H as <-; auto|].
    inversion Nm as [|? ? N1 N2]; subst. destruct (history_lookup (c_name cl) h) as [old|] eqn:L.
    - obinv H. destruct a as [[[c' h'] cls] q]. injection H as <-.
      destruct (IH _ _ _ _ E N2 D) as (A & B & C & F). apply history_some in L as [L1 L2]. rewrite Forall_forall in D.
      split; [exact A|]. split; [cbn; congruence|]. split; intros Q; constructor; auto.
    - obinv H. destruct a as [[c1 cl']|cl'].
      + obinv H. destruct a as [[[c' h'] cls] q]. injection H as <-. apply later_cluster_spec in E as (A & B & C); [|exact N1]. cbn [snd] in *.
        destruct (IH _ _ _ _ E0 N2 (Forall_cons _ C D)) as (A' & B' & C' & F'). split; [exact A'|]. split; [cbn; congruence|]. split; intros Q; constructor; auto.
      + injection H as <-. split; [exact D|]. split; [reflexivity|]. split; discriminate.
  Qed.

  Lemma new_named l : named (new_cluster M l).
  Proof. reflexivity. Qed.
  Lemma gic_named cls out b : has_polygons M Sh cls -> gic cls = Val (out, b) -> Forall named cls -> Forall named out.
  Proof.
    intros P H N. rewrite (gic_value M Sh setl cls P) in H. destruct (intersections_exist _ _); injection H as <- <-.
    - apply Forall_forall. intros c Hc. apply in_map_iff in Hc as (p & <- & _). apply new_named.
    - apply Forall_forall. intros c Hc. apply in_map_iff in Hc as (d & <- & Hd). rewrite Forall_forall in N. specialize (N d Hd).
      unfold named. destruct (read_cache M Sh d) as (-> & -> & _). exact N.
  Qed.
  Lemma gic_total cls : has_polygons M Sh cls -> exists out b, gic cls = Val (out, b).
  Proof. intros P. rewrite (gic_value M Sh setl cls P). destruct (intersections_exist _ _); eauto. Qed.
  Lemma gic_fewer cls out : has_polygons M Sh cls -> gic cls = Val (out, true) -> (0 < List.length out < List.length cls)%nat.
  Proof.
    intros P H. destruct (C65_preserves_obstacles M Sh setl setl_ok cls out true P H) as (_ & L & _). split; [|apply L; reflexivity].
    rewrite (gic_value M Sh setl cls P) in H. destruct (intersections_exist _ _) eqn:X; [|discriminate]. injection H as <-. rewrite map_length.
    apply exists_true in X as (i & j & [T _]).
    destruct (parts_cover (meet_b M Sh cls) setl setl_ok (List.length cls) i) as (p & Q & _); [lia|].
    destruct (parts _ _ _); [destruct Q|cbn; lia].
  Qed.
  Lemma gic_false cls out : has_polygons M Sh cls -> gic cls = Val (out, false) -> Forall done cls ->
    Forall done out /\ forall i j ci cj p q, i <> j -> (forall p q, sh_intersects Sh p q = sh_intersects Sh q p) ->
      nth_error out i = Some ci -> nth_error out j = Some cj -> polygon_of M Sh ci = Some p -> polygon_of M Sh cj = Some q -> sh_intersects Sh p q = false.
  Proof.
    intros P H D. pose proof H as H'. rewrite (gic_value M Sh setl cls P) in H. destruct (intersections_exist _ _) eqn:X; [discriminate|]. injection H as <-. split.
    - apply Forall_forall. intros c Hc. apply in_map_iff in Hc as (d & <- & Hd). rewrite Forall_forall in D. apply done_read, D, Hd.
    - intros i j ci cj p q N Sym Ei Ej Pi Pj. destruct (sh_intersects Sh p q) eqn:I; [exfalso|reflexivity].
      assert (Y : forall i' c r, nth_error (map (fun c => fst (read_polygon M Sh c)) cls) i' = Some c -> polygon_of M Sh c = Some r ->
                 exists c0, nth_error cls i' = Some c0 /\ polygon_of M Sh c0 = Some r).
      { intros i' c r E R. rewrite nth_error_map in E. destruct (nth_error cls i') as [c0|]; [|discriminate]. cbn in E. injection E as <-.
        exists c0. split; [reflexivity|]. rewrite <- R. symmetry. apply polygon_of_read. }
      destruct (Y _ _ _ Ei Pi) as (c1 & E1 & P1). destruct (Y _ _ _ Ej Pj) as (c2 & E2 & P2).
      assert (T : intersections_exist (meet_b M Sh cls) (List.length cls) = true); [|congruence].
      apply exists_true.
      assert (K1 : (i < List.length cls)%nat) by (apply nth_error_Some; congruence).
      assert (K2 : (j < List.length cls)%nat) by (apply nth_error_Some; congruence).
      destruct (lt_dec i j).
      + exists i, j. split; [lia|]. apply meet_b_spec. exists c1, c2, p, q. auto.
      + exists j, i. split; [lia|]. apply meet_b_spec. exists c2, c1, q, p. rewrite Sym. auto.
  Qed.

  (* the state of the loop *)
  Definition loop_inv (h cls : list cluster) (ex : bool) : Prop :=
    Forall done h /\ Forall named cls /\ (if ex then (0 < List.length cls)%nat else Forall done cls).

  Lemma round_inv op x xg all k n counter h cls c' h' cls' out b :
    starify_round M Sh op x xg all k n 0 counter h cls = Val (c', h', cls', false) -> Forall named cls -> Forall done h ->
    gic cls' = Val (out, b) -> loop_inv h' out b /\ Forall done cls' /\ List.length cls' = List.length cls /\ (b = true -> (List.length out < List.length cls)%nat).
  Proof.
    intros R N D Gc. pose proof (round_spec op x xg all k n cls 0%nat counter h _ R N D) as (A & B & C & _). specialize (C eq_refl).
    assert (P := done_has _ C). assert (Nm : Forall named cls') by (eapply Forall_impl; [|exact C]; intros c Hc; apply Hc).
    split; [|split; [exact C|split; [exact B|]]].
    - split; [exact A|]. split; [apply (gic_named cls' out b P Gc Nm)|]. destruct b.
      + apply (gic_fewer cls' out P Gc).
      + apply (gic_false cls' out P Gc C).
    - intros ->. rewrite <- B. apply (gic_fewer cls' out P Gc).
  Qed.

  Lemma rounds_fuel op x xg all k : forall m f1 f2 n counter h its cls ex,
    loop_inv h cls ex -> (List.length cls <= m)%nat -> (m <= f1)%nat -> (m <= f2)%nat ->
    rounds M Sh setl op x xg all k f1 n counter h its cls ex = rounds M Sh setl op x xg all k f2 n counter h its cls ex.
  Proof.
    induction m as [|m IH]; intros f1 f2 n counter h its cls ex I L F1 F2.
    - destruct ex; [destruct I as (_ & _ & I); lia|]. destruct f1, f2; reflexivity.
    - destruct f1 as [|f1]; [lia|]. destruct f2 as [|f2]; [lia|]. cbn [rounds]. destruct ex; [|reflexivity].
      destruct (op_late op (AtRound n)); [reflexivity|]. destruct (starify_round M Sh op x xg all k n 0 counter h cls) as [[[[c' h'] cls'] q]| |] eqn:R; [|reflexivity|reflexivity].
      cbn [obind]. destruct q; [reflexivity|]. destruct (gic cls') as [[out b]| |] eqn:Gc; [|reflexivity|reflexivity]. cbn [obind].
      destruct I as (D & N & _). destruct (round_inv _ _ _ _ _ _ _ _ _ _ _ _ _ _ R N D Gc) as (I' & _ & _ & L').
      destruct (match op_max_iterations op with Some m0 => (m0 <=? S n)%nat | None => false end); [reflexivity|].
      destruct b; [|destruct f1, f2; reflexivity]. apply IH; [exact I'|specialize (L' eq_refl); lia|lia|lia].
  Qed.

  Lemma rounds_iter op x xg all k : forall f n counter h its cls ex e,
    loop_inv h cls ex -> rounds M Sh setl op x xg all k f n counter h its cls ex = Val e ->
    match e with
    | Stopped _ n' _ => (n' <= n + if ex then List.length cls else 0)%nat
    | Finished _ n' _ _ => (n' <= n + if ex then List.length cls else 0)%nat
    end.
  Proof.
    induction f as [|f IH]; intros n counter h its cls ex e I H; cbn [rounds] in H; (destruct ex; [|injection H as <-; lia]); [discriminate|].
    destruct (op_late op (AtRound n)); [injection H as <-; lia|]. obinv H. destruct a as [[[c' h'] cls'] q].
    destruct q; [injection H as <-; lia|]. obinv H. destruct a as [out b].
    destruct I as (D & N & L0). destruct (round_inv _ _ _ _ _ _ _ _ _ _ _ _ _ _ E N D E0) as (I' & _ & _ & L').
    destruct (match op_max_iterations op with Some m0 => (m0 <=? S n)%nat | None => false end); [injection H as <-; lia|].
    apply IH in H; [|exact I']. destruct b; [specialize (L' eq_refl)|]; destruct e; lia.
  Qed.

  (* how the loop ends when it is not cut short *)
  Definition disjoint_list (cls : list cluster) : Prop :=
    forall i j ci cj p q, i <> j -> nth_error cls i = Some ci -> nth_error cls j = Some cj ->
      polygon_of M Sh ci = Some p -> polygon_of M Sh cj = Some q -> sh_intersects Sh p q = false.
  Hypothesis symmetric : forall p q, sh_intersects Sh p q = sh_intersects Sh q p.
  Lemma gic_disjoint cls out : Forall done cls -> gic cls = Val (out, false) -> disjoint_list out.
  Proof. intros D H. destruct (gic_false cls out (done_has _ D) H D) as [_ F]. intros i j ci cj p q N. apply (F i j ci cj p q N symmetric). Qed.
  Lemma rounds_disjoint op x xg all k : forall f n counter h its cls ex c' n' its' out,
    loop_inv h cls ex -> (ex = false -> disjoint_list cls) ->
    rounds M Sh setl op x xg all k f n counter h its cls ex = Val (Finished c' n' its' out) ->
    (forall m, op_max_iterations op = Some m -> n' = n \/ (n' < m)%nat) ->
    Forall done out /\ disjoint_list out.
  Proof.
    induction f as [|f IH]; intros n counter h its cls ex c' n' its' out I Dj H Mx; cbn [rounds] in H.
    - destruct ex; [discriminate|]. injection H as <- <- <- <-. destruct I as (_ & _ & I). auto.
    - destruct ex; [|injection H as <- <- <- <-; destruct I as (_ & _ & I); auto].
      destruct (op_late op (AtRound n)); [discriminate|]. obinv H. destruct a as [[[c1 h1] cls1] q].
      destruct q; [discriminate|]. obinv H. destruct a as [out1 b].
      destruct I as (D & N & L0). destruct (round_inv _ _ _ _ _ _ _ _ _ _ _ _ _ _ E N D E0) as (I' & D1 & _ & L').
      assert (Dj' : b = false -> disjoint_list out1) by (intros ->; apply (gic_disjoint cls1); assumption).
      pose proof (fun e => rounds_iter op x xg all k f (S n) c1 h1 (if op_return_history op then its ++ [cls1] else its) out1 b e I') as It.
      destruct (match op_max_iterations op with Some m0 => (m0 <=? S n)%nat | None => false end) eqn:Cut.
      + injection H as <- <- <- <-. destruct (op_max_iterations op) as [m|]; [|discriminate]. apply Nat.leb_le in Cut.
        destruct (Mx m eq_refl); lia.
      + apply (IH _ _ _ _ _ _ _ _ _ _ I' Dj' H). intros m Em. destruct (Mx m Em) as [->|]; [|right; assumption]. exfalso.
        clear - H. assert (Q : forall f n counter h its cls ex c' n' its' out, rounds M Sh setl op x xg all k f n counter h its cls ex = Val (Finished c' n' its' out) -> (n <= n')%nat).
        { clear. induction f as [|f IH]; intros n counter h its cls ex c' n' its' out H; cbn [rounds] in H; (destruct ex; [|injection H as <- <- <- <-; lia]); [discriminate|].
          destruct (op_late op (AtRound n)); [discriminate|]. obinv H. destruct a as [[[c1 h1] cls1] q]. destruct q; [discriminate|]. obinv H. destruct a as [out1 b].
          destruct (match op_max_iterations op with Some m0 => (m0 <=? S n)%nat | None => false end); [injection H as <- <- <- <-; lia|]. apply IH in H. lia. }
        apply Q in H. lia.
  Qed.

  (** *** make_convex *)
  Lemma convexify_length op x xg : forall todo counter before c b out, convexify M Sh op x xg counter before todo = Val (c, b, out) ->
    List.length out = (List.length before + List.length todo)%nat.
  Proof.
    induction todo as [|cl todo IH]; intros counter before c b out H; cbn [convexify] in H; [injection H as <- <- <-; cbn; lia|].
    destruct (c_obstacle cl) as [ob|]; [|discriminate]. destruct (obst_is_convex M Sh op ob); [apply IH in H; rewrite app_length in H; cbn in *; lia|].
    destruct (op_late op (AtHull (List.length before))); [injection H as <- <- <-; rewrite app_length; cbn; lia|].
    destruct (read_polygon M Sh cl) as [cl1 [g|]]; [|discriminate]. obinv H. destruct (_ && _).
    - obinv H. cbn in H. apply IH in H. rewrite app_length in H. cbn in *. lia.
    - apply IH in H. rewrite app_length in H. cbn in *. lia.
  Qed.
End S.
