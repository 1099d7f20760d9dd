(** Properties of cluster_and_starify. *)
From Coq Require Import String Reals List Bool Arith ZArith Lia Lra Permutation.
From Verif Require Import Num Spec M_Cg M_Motion M_Obstacle M_Clusters L_Clusters P_Clusters M_StarHull M_Starify L_Cg L_Starify.
Import ListNotations.

(** list(set(l)): the elements of l, each once, in some order *)
Definition set_order (setl : list nat -> list nat) : Prop := forall l, NoDup (setl l) /\ forall x, In x (setl l) <-> In x l.
(** the random displacements leave the line before they run out, wherever the centre is *)
Definition leaves_line (x xg : RPt) (draws : list RPt) : Prop := forall c, exists c', off_line x xg draws c = Val c'.

(** *** never out of answers *)
Section Answers.
  Context {Obs G : Type} (M : methods Obs G) (Sh : shapely G) (setl : list nat -> list nat).
  Notation cluster := (cluster Obs G).
  Lemma of_res_answers {A} (r : res A) : of_res r <> NoAnswer. Proof. destruct r; discriminate. Qed.
  Lemma obind_answers {A B} (o : outcome A) (f : A -> outcome B) : o <> NoAnswer -> (forall a, o = Val a -> f a <> NoAnswer) -> obind o f <> NoAnswer.
  Proof. destruct o; cbn; auto; discriminate. Qed.
  Lemma omap_answers {A B} (f : A -> outcome B) l : (forall a, f a <> NoAnswer) -> omap f l <> NoAnswer.
  Proof. intros H. induction l; cbn; [discriminate|]. apply obind_answers; [apply H|]. intros b _. apply obind_answers; [exact IHl|discriminate]. Qed.
  Ltac ans := repeat (first [apply obind_answers | apply of_res_answers | discriminate | assumption]; intros).
  Lemma with_kernels_answers obs : forall t, with_kernels M Sh t obs <> NoAnswer.
  Proof. induction obs as [|o obs IH]; intros t; cbn; [discriminate|]. destruct (is_star_class _); [|discriminate]. ans. apply IH. Qed.
  Lemma ckp_answers adm obs x xg eps prev ws draws timer : leaves_line x xg draws -> compute_kernel_points M Sh adm obs x xg eps prev ws draws timer <> NoAnswer.
  Proof.
    intros L. unfold compute_kernel_points. apply obind_answers; [destruct prev as [p|]; [destruct (c_kernel_points p)|]; discriminate|]. intros pc _.
    apply obind_answers; [unfold selection_set; apply obind_answers; [destruct (forallb _ _); [apply with_kernels_answers|discriminate]|discriminate]|]. intros t _.
    apply obind_answers. { unfold triangle_center. destruct pc as [q|].
      - destruct (_ && _); [discriminate|]. ans. destruct a; ans.
      - ans. destruct (L a) as (c' & ->). discriminate. }
    intros c _. apply obind_answers. { unfold boundary_distance. destruct (sh_parts Sh t); ans; [|destruct a; discriminate]. apply omap_answers. intros. ans. }
    intros d _. cbv zeta. destruct (Reqb _ _); discriminate.
  Qed.
  Lemma kernel_polygon_answers o v : kernel_polygon M Sh o v <> NoAnswer.
  Proof. unfold kernel_polygon. ans. destruct a; [ans|discriminate]. Qed.
  Lemma kernel_polygons_answers o vs : forall acc, kernel_polygons M Sh o acc vs <> NoAnswer.
  Proof. induction vs as [|v vs IH]; intros acc; cbn [kernel_polygons]; [discriminate|]. apply obind_answers; [apply kernel_polygon_answers|intros; apply IH]. Qed.
  Lemma excluding_answers o o' : excluding M Sh o o' <> NoAnswer.
  Proof.
    unfold excluding. destruct (is_polygon_class _); [|discriminate]. destruct (forallb _ _); [|discriminate]. destruct (ob_extreme_points M o'); [discriminate|].
    apply obind_answers; [apply kernel_polygon_answers|intros]. apply obind_answers; [apply kernel_polygons_answers|discriminate].
  Qed.
  Lemma excluding_all_answers o obs : forall d, excluding_all M Sh o obs d <> NoAnswer.
  Proof. induction obs as [|o' obs IH]; intros d; cbn [excluding_all]; [discriminate|]. destruct (id_eqb _ _); [apply IH|]. apply obind_answers; [apply excluding_answers|intros; apply IH]. Qed.
  Lemma prepare_answers op x xg all : forall obs i k, prepare M Sh op x xg all i obs k <> NoAnswer.
  Proof.
    induction obs as [|o obs IH]; intros i k; cbn; [discriminate|]. destruct (op_late op _); [discriminate|]. ans.
    destruct a as [cx|], a0 as [cg|]; try discriminate. ans; [|apply IH]. destruct (op_exclude_obstacles op); [apply excluding_all_answers|discriminate].
  Qed.
  Hypothesis hull_answers : forall o k, ob_convex_hull M o k <> NoAnswer /\ ob_polygon_hull M o k <> NoAnswer.
  Lemma ksh_answers obs k : kernel_starshaped_hull M Sh obs k <> NoAnswer.
  Proof.
    unfold kernel_starshaped_hull. ans. apply omap_answers. intros o. unfold hull_of. destruct (ob_is_convex M o); [apply hull_answers|].
    destruct (is_polygon_class _); [apply hull_answers|discriminate].
  Qed.
  Lemma id_argument_answers (p : option cluster) : id_argument M p <> NoAnswer.
  Proof. destruct p as [p|]; cbn; [destruct (c_obstacle p)|]; discriminate. Qed.
  Lemma get_cone_answers d i : get_cone d i <> NoAnswer.
  Proof. unfold get_cone. destruct (lookup i d); discriminate. Qed.
  Lemma first_cluster_answers op x xg k counter i o : leaves_line x xg (op_draws op 0 i) -> first_cluster M Sh op x xg k counter i o <> NoAnswer.
  Proof.
    intros L. unfold first_cluster. cbv zeta.
    do 7 (apply obind_answers; [first [apply get_cone_answers | apply id_argument_answers | apply ksh_answers | apply ckp_answers; exact L | apply of_res_answers]|intros]).
    destruct a5; [destruct (set_id _ _); discriminate|]. destruct (is_star_class _); discriminate.
  Qed.
  Lemma first_clusters_answers op x xg k : (forall n i, leaves_line x xg (op_draws op n i)) -> forall obs counter i, first_clusters M Sh op x xg k counter i obs <> NoAnswer.
  Proof.
    intros L. induction obs as [|o obs IH]; intros counter i; cbn; [discriminate|]. apply obind_answers; [apply first_cluster_answers, L|]. intros [c1 cl] _.
    apply obind_answers; [apply IH|]. intros [c2 cls] _. discriminate.
  Qed.
  Lemma cones_polygon_answers op d obs : cones_polygon M Sh op d obs <> NoAnswer.
  Proof.
    unfold cones_polygon. apply obind_answers; [apply omap_answers; intros; apply get_cone_answers|intros]. destruct (list_intersection a) as [| |l]; try discriminate.
    unfold union_of_cones. destruct l as [|c [|c' l]]; ans; apply omap_answers; intros; ans.
  Qed.
  Lemma later_answers op x xg all k n i counter cl : leaves_line x xg (op_draws op n i) -> later_cluster M Sh op x xg all k n i counter cl <> NoAnswer.
  Proof.
    intros L. unfold later_cluster. do 2 (apply obind_answers; [apply cones_polygon_answers|intros]). cbv zeta. destruct (vanishing Sh _); [discriminate|].
    do 3 (apply obind_answers; [first [apply id_argument_answers | apply ksh_answers | apply ckp_answers; exact L]|intros]). destruct (set_id counter _); discriminate.
  Qed.
  Lemma round_answers op x xg all k n : (forall n i, leaves_line x xg (op_draws op n i)) -> forall todo i counter h, starify_round M Sh op x xg all k n i counter h todo <> NoAnswer.
  Proof.
    intros L. induction todo as [|cl todo IH]; intros i counter h; cbn; [discriminate|]. destruct (history_lookup _ _).
    - apply obind_answers; [apply IH|]. intros [[[? ?] ?] ?] _. discriminate.
    - apply obind_answers; [apply later_answers, L|]. intros [[c' cl']|cl'] _; [|discriminate]. apply obind_answers; [apply IH|]. intros [[[? ?] ?] ?] _. discriminate.
  Qed.
  Hypothesis setl_ok : set_order setl.
  Lemma rounds_answers op x xg all k : (forall n i, leaves_line x xg (op_draws op n i)) -> forall f n counter h its cls ex,
    loop_inv M Sh h cls ex -> (List.length cls <= f)%nat -> rounds M Sh setl op x xg all k f n counter h its cls ex <> NoAnswer.
  Proof.
    intros L. induction f as [|f IH]; intros n counter h its cls ex I F; cbn [rounds].
    - destruct ex; [destruct I as (_ & _ & I); lia|discriminate].
    - destruct ex; [|discriminate]. destruct (op_late op _); [discriminate|]. apply obind_answers; [apply round_answers, L|]. intros [[[c' h'] cls'] q] R. destruct q; [discriminate|].
      destruct I as (D & N & _). pose proof (round_spec M Sh op x xg all k n cls 0%nat counter h _ R N D) as (_ & _ & C & _). specialize (C eq_refl).
      destruct (gic_total M Sh setl cls' (done_has M Sh cls' C)) as (out & b & Gc). rewrite Gc. cbn [obind].
      destruct (match op_max_iterations op with Some m0 => (m0 <=? S n)%nat | None => false end); [discriminate|].
      destruct (round_inv M Sh setl setl_ok _ _ _ _ _ _ _ _ _ _ _ _ _ _ R N D Gc) as (I' & _ & _ & L').
      destruct b; [apply IH; [exact I'|specialize (L' eq_refl); lia]|]. destruct f; discriminate.
  Qed.
  Lemma convexify_answers op x xg : forall todo counter before, convexify M Sh op x xg counter before todo <> NoAnswer.
  Proof.
    induction todo as [|cl todo IH]; intros counter before; cbn [convexify]; [discriminate|]. destruct (c_obstacle cl) as [ob|]; [|discriminate].
    destruct (obst_is_convex _ _ _ _); [apply IH|]. destruct (op_late _ _); [discriminate|]. destruct (read_polygon M Sh cl) as [cl1 [g|]]; [|discriminate].
    apply obind_answers; [apply of_res_answers|]. intros hull _. destruct (_ && _); [|apply IH].
    apply obind_answers. { destruct ob as [o [p|]| |]; cbn; try discriminate. destruct (is_star_class _); discriminate. }
    intros p _. destruct (set_id _ _). apply IH.
  Qed.

  Lemma first_inv op x xg k counter obs c1 cls out b : first_clusters M Sh op x xg k counter 0 obs = Val (c1, cls) ->
    get_intersection_clusters M Sh setl cls = Val (out, b) ->
    Forall (done M Sh) cls /\ List.length cls = List.length obs /\ loop_inv M Sh (rev cls) out b /\ (b = true -> (List.length out < List.length obs)%nat).
  Proof.
    intros F Gc. apply first_clusters_spec in F as [A D]. cbn [snd] in *.
    assert (Ln : List.length cls = List.length obs) by (rewrite <- (map_length c_obstacles cls), A; apply map_length).
    assert (P := done_has M Sh cls D). split; [exact D|]. split; [exact Ln|]. split.
    - split; [apply Forall_rev, D|]. split.
      + apply (gic_named M Sh setl cls out b P Gc). eapply Forall_impl; [|exact D]. intros c Hc. apply Hc.
      + destruct b; [apply (gic_fewer M Sh setl setl_ok cls out P Gc)|apply (gic_false M Sh setl cls out P Gc D)].
    - intros ->. rewrite <- Ln. apply (gic_fewer M Sh setl setl_ok cls out P Gc).
  Qed.

  Theorem C66_terminates : forall op counter x xg (obs : list Obs) fuel,
    (forall n i, leaves_line x xg (op_draws op n i)) -> (List.length obs <= fuel)%nat ->
    let call f := cluster_and_starify M Sh setl op f counter x xg obs in
    call fuel <> NoAnswer /\ call fuel = call (List.length obs) /\
    forall a, call fuel = Val a -> (a_iter a <= Nat.max 1 (List.length obs))%nat.
  Proof.
    intros op counter x xg obs fuel L F call. unfold call, cluster_and_starify. clear call.
    set (c0 := match op_workspace op with Some _ => counter | None => (counter + 1)%Z end). clearbody c0.
    destruct (prepare M Sh op x xg obs 0 obs (Cones [] [] [])) as [[k|]| |] eqn:P; cbn [obind];
      [|split; [discriminate|split; [reflexivity|intros a H; injection H as <-; cbn; lia]]|split; [discriminate|split; [reflexivity|discriminate]]|destruct (prepare_answers _ _ _ _ _ _ _ P)].
    destruct (first_clusters M Sh op x xg k c0 0 obs) as [[c1 cls]| |] eqn:FC; cbn [obind];
      [|split; [discriminate|split; [reflexivity|discriminate]]|destruct (first_clusters_answers _ _ _ _ L _ _ _ FC)].
    cbv zeta. destruct (get_intersection_clusters M Sh setl cls) as [[out b]| |] eqn:Gc; cbn [obind].
    2: split; [discriminate|split; [reflexivity|discriminate]].
    2: { pose proof FC as FC'. apply first_clusters_spec in FC' as [_ D]. destruct (gic_total M Sh setl cls (done_has M Sh cls D)) as (? & ? & E). congruence. }
    destruct (first_inv _ _ _ _ _ _ _ _ _ _ FC Gc) as (D & Ln & I & Ls).
    set (its := if op_return_history op then [cls] else []).
    assert (Lo : (List.length out <= List.length obs)%nat).
    { destruct (C65_preserves_obstacles M Sh setl setl_ok cls out b (done_has M Sh cls D) Gc) as (_ & Q1 & Q2). destruct b; [specialize (Q1 eq_refl)|specialize (Q2 eq_refl)]; lia. }
    split; [|split].
    - apply obind_answers; [apply rounds_answers; [exact L|exact I|lia]|]. intros e _. destruct e; [discriminate|]. destruct (op_make_convex op); [|discriminate].
      apply obind_answers; [apply convexify_answers|]. intros [[? t] ?] _. destruct t; discriminate.
    - rewrite (rounds_fuel M Sh setl setl_ok op x xg obs k (List.length obs) fuel (List.length obs) 1 c1 (rev cls) its out b I Lo F (le_n _)). reflexivity.
    - intros a H. obinv H. pose proof (rounds_iter M Sh setl setl_ok op x xg obs k fuel 1 c1 (rev cls) its out b _ I E) as B.
      assert (Q : (1 + (if b then List.length out else 0) <= Nat.max 1 (List.length obs))%nat) by (destruct b; [specialize (Ls eq_refl)|]; lia).
      destruct a0; [injection H as <-; cbn [a_iter default_result]; lia|]. destruct (op_make_convex op).
      + obinv H. destruct a0 as [[? t] ?]. destruct t; injection H as <-; cbn [a_iter]; lia.
      + injection H as <-. cbn [a_iter]. lia.
  Qed.
End Answers.
Print Assumptions C66_terminates.
