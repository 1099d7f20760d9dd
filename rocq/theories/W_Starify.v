(** A small world in which cluster_and_starify can be evaluated: regions are lists of cells. *)
From Coq Require Import String Reals List Bool Arith ZArith Lia Lra.
From Verif Require Import Num Spec M_Cg M_Motion M_Obstacle M_Clusters P_Clusters M_StarHull M_Starify L_Geom L_Cg P_Cg P_Cone L_Starify P_Starify P_StarifyResult P_StarifyTotal.
Import ListNotations.

Definition region_cells : Type := list Z.
Definition share_cell (p q : list Z) : bool := existsb (fun a => existsb (Z.eqb a) q) p.
Definition null {A} (l : list A) : bool := match l with [] => true | _ => false end.
Definition Ox : RPt := (0, 0)%R.
Definition Og : RPt := (10, 0)%R.
(* tangent points of every obstacle, seen from p *)
Definition toy_tangents (p : RPt) : res (list RPt) := Ret [psub p (0, 1)%R; psub p (1, 0)%R].
Definition level (n : nat) : RPt := (0, INR n)%R.
(* the hull depends on the height of the kernel triangle *)
Definition toy_hull (h1 h2 : Z -> list Z) (o : Z) (k : RPt * RPt * RPt) : outcome (list Z) :=
  Val (if Rltb (snd (triangle_mean k)) (3 / 2) then h1 o else h2 o).

Definition toy_methods (cl : Z -> obs_class) (id : Z -> option Z) (pol h1 h2 : Z -> list Z) : methods Z (list Z) :=
  Methods Z (list Z) id cl (fun _ => true) (fun _ => true) pol (fun _ => Ret [0%Z]) (fun _ => toy_tangents) (fun _ _ => true) (fun _ => [])
    (toy_hull h1 h2) (toy_hull h1 h2) (fun _ => (0, 1)%R).
Definition toy_shapely (ch : list Z -> list Z) : shapely (list Z) :=
  Shapely (list Z) (fun g => if null g then 0%R else 1%R) null (fun p _ => p) (fun p _ => p) (@concat Z) (fun _ _ => true) share_cell
    (fun _ _ => false) (fun _ => (0, 0)%R) (fun g _ => Ret (level (List.length g))) (fun g _ _ => Ret [g]) (fun _ => None) (fun _ _ => Ret 1%R)
    (fun g => Ret (ch g)) (fun _ => Ret [0%Z]).
Definition toy_options (prev : option (list (cluster Z (list Z)))) (late : moment -> bool) (mc ex : bool) (mi : option nat) (hist : bool) : options Z (list Z) :=
  Options (1 / 10)%R (Some []) [] late prev mc ex mi hist (fun _ _ => [(0, 1)%R]) (fun _ _ => (1, 1, 1, 1, 1)%R) (fun _ => false) [].
Definition never (m : moment) : bool := false.

Definition side : R := Rmin (1 / 10) (9 / 10 * 1).
Definition KP (n : nat) : RPt * RPt * RPt := equilateral_triangle (level n) side 0.
Lemma side_pos : (0 <= side)%R.
Proof. unfold side. apply Rmin_glb; lra. Qed.
Lemma mean_KP n : triangle_mean (KP n) = level n.
Proof.
  unfold KP. pose proof (C12_triangle_unrotated_partial (level n) side side_pos) as H. destruct (equilateral_triangle (level n) side 0) as [[t0 t1] t2].
  destruct H as (_ & H). assert (E : mean [t0; t1; t2] = level n) by tauto. rewrite <- E. unfold mean, triangle_mean, psum, smul, vadd; cbn [fold_right fst snd List.length].
  replace (INR 3) with 3%R by (cbn; ring). f_equal; field.
Qed.
Lemma hull_KP h1 h2 o n : toy_hull h1 h2 o (KP n) = Val (if (n <=? 1)%nat then h1 o else h2 o).
Proof.
  unfold toy_hull. rewrite mean_KP. cbn [level snd]. do 2 f_equal. destruct (Rltb_spec (INR n) (3 / 2)) as [H|H]; destruct (Nat.leb_spec n 1) as [L|L]; auto; exfalso.
  - assert (L2 : (2 <= n)%nat) by lia. apply le_INR in L2. cbn in L2. lra.
  - apply le_INR in L. cbn in L. lra.
Qed.
Lemma small_1 : Rltb small 1 = true. Proof. destruct (Rltb_spec small 1) as [|N]; [reflexivity|unfold small in N; lra]. Qed.
Lemma one_small : Rltb 1 small = false. Proof. destruct (Rltb_spec 1 small) as [N|]; [unfold small in N; lra|reflexivity]. Qed.
Lemma off_level n draws : (0 < n)%nat -> off_line Ox Og draws (level n) = Val (level n).
Proof.
  intros N. assert (C : is_collinear Ox Og (level n) = false).
  { destruct (is_collinear Ox Og (level n)) eqn:E; [exfalso|reflexivity]. apply is_collinear_iff in E. unfold Ox, Og, level in E. unv. assert (L1 : (1 <= n)%nat) by lia. apply le_INR in L1. cbn [INR] in L1. unfold TH in E. nra. }
  destruct draws; cbn [off_line]; rewrite C; reflexivity.
Qed.
Lemma total_111 : Reqb (total_time (1, 1, 1, 1, 1)%R) 0 = false.
Proof. unfold total_time. destruct (Reqb_spec (1 + (1 - 1) + (1 - (1 - 1)) + (1 - (1 - (1 - 1))) + (1 - (1 - (1 - (1 - 1))))) 0); [lra|reflexivity]. Qed.
Lemma draws_leave : leaves_line Ox Og [(0, 1)%R].
Proof.
  intros c. cbn [off_line]. destruct (is_collinear Ox Og c) eqn:E; [|eauto]. destruct (is_collinear Ox Og (padd c (0, 1)%R)) eqn:E2; [exfalso|eauto].
  apply is_collinear_iff in E. apply is_collinear_iff in E2. change (padd c (0, 1)%R) with (vadd c (0, 1)%R) in E2. unfold Ox, Og in *. destruct c as [a b]. unv. unfold TH in *. lra.
Qed.

Section Toy.
  Variables (cl : Z -> obs_class) (id : Z -> option Z) (pol h1 h2 : Z -> list Z) (ch : list Z -> list Z).
  Hypothesis star : forall o, is_star_class (cl o) = true.
  Notation M := (toy_methods cl id pol h1 h2).
  Notation Sh := (toy_shapely ch).

  Lemma toy_ckp g obs eps ws draws : eps = (1 / 10)%R -> g <> [] ->
    compute_kernel_points M Sh g obs Ox Og eps None ws draws (1, 1, 1, 1, 1)%R = Val (KP (List.length g)).
  Proof.
    intros -> N. unfold compute_kernel_points. cbn [obind].
    assert (W : forall t, exists t', with_kernels M Sh t obs = Val t').
    { clear - star. induction obs as [|o obs IH]; intros t; cbn; [eauto|]. rewrite star. cbn. apply IH. }
    unfold selection_set. cbv zeta. change (forallb (ob_is_starshaped M) obs) with (forallb (fun _ : Z => true) obs).
    destruct (W (selection_set_workspace M Sh g obs ws)) as [t' E].
    assert (Q : (if forallb (fun _ : Z => true) obs then with_kernels M Sh (selection_set_workspace M Sh g obs ws) obs else Val (selection_set_workspace M Sh g obs ws)) = Val t').
    { replace (forallb (fun _ : Z => true) obs) with true; [exact E|]. clear. induction obs; cbn; auto. }
    rewrite Q. cbn [obind]. set (tc := if Rltb small _ then _ else _). clearbody tc. unfold triangle_center.
    change (sh_nearest Sh g (sh_centroid Sh tc)) with (Ret (A:=RPt) (level (List.length g))). cbn [of_res obind].
    rewrite off_level by (destruct g; [congruence|cbn; lia]). cbn [obind].
    change (boundary_distance Sh tc (level (List.length g))) with (Val 1%R). cbn [obind]. rewrite total_111. reflexivity.
  Qed.
  Definition Kc (p : RPt) : cone R := Cone p (psub p (psub p (0, 1)%R)) (psub p (psub p (1, 0)%R)).
  Lemma toy_prepare op all : op_exclude_obstacles op = false -> (forall i, op_late op (AtObstacle i) = false) -> forall obs i k, prepare M Sh op Ox Og all i obs k =
    Val (Some (Cones (map (fun o => (id o, Kc Ox)) (rev obs) ++ k_robot k) (map (fun o => (id o, Kc Og)) (rev obs) ++ k_goal k) (k_others k))).
  Proof.
    intros Ex Lt. induction obs as [|o obs IH]; intros i k; [destruct k; reflexivity|]. cbn [prepare]. rewrite Lt.
    change (admissible_kernel (ob_tangent_points M o) Ox) with (Ret (Some (Kc Ox))). change (admissible_kernel (ob_tangent_points M o) Og) with (Ret (Some (Kc Og))).
    cbn [of_res obind]. rewrite Ex. cbn [obind]. rewrite IH. cbn [k_robot k_goal k_others rev ob_id toy_methods]. rewrite !map_app, <- !app_assoc. reflexivity.
  Qed.
  Lemma Kc_self p : intersection_same_apex (Kc p) (Kc p) = [Kc p; Kc p].
  Proof.
    unfold Kc. rewrite C18_self_intersection_partial. destruct (is_ccw _ _ _) eqn:E; [exfalso|reflexivity]. apply is_ccw_iff in E. revert E.
    unfold n0; nR. rewrite Num.Q2R_0. change (psub p (psub p (0, 1)%R)) with (vsub p (vsub p (0, 1)%R)). change (psub p (psub p (1, 0)%R)) with (vsub p (vsub p (1, 0)%R)).
    destruct p as [a b]. unv. unfold TH. lra.
  Qed.
  Lemma Kc_union p : forall n m, list_intersection_loop (repeat (Kc p) (S m)) (repeat (Kc p) n) = Some (repeat (Kc p) (S m * 2 ^ n)).
  Proof.
    assert (F : forall m, flat_map (fun ci => intersection_same_apex ci (Kc p)) (repeat (Kc p) m) = repeat (Kc p) (2 * m)).
    { induction m as [|m IH]; [reflexivity|]. cbn [repeat flat_map]. rewrite IH, Kc_self. replace (2 * S m)%nat with (S (S (2 * m))) by lia. reflexivity. }
    induction n as [|n IH]; intros m; cbn [repeat list_intersection_loop]; [rewrite Nat.pow_0_r, Nat.mul_1_r; reflexivity|].
    change (Kc p :: repeat (Kc p) m) with (repeat (Kc p) (S m)). rewrite F. replace (2 * S m)%nat with (S (2 * m + 1)) by lia. cbn [repeat].
    change (Kc p :: repeat (Kc p) (2 * m + 1)) with (repeat (Kc p) (S (2 * m + 1))). rewrite IH. do 2 f_equal. cbn [Nat.pow]. lia.
  Qed.
  Lemma toy_cones op d l p : l <> [] -> (forall o, In o l -> lookup (id o) d = Some (Kc p)) ->
    cones_polygon M Sh op d l = Val (repeat 0%Z (2 ^ (List.length l - 1))).
  Proof.
    intros N H. unfold cones_polygon.
    assert (E : omap (fun o => get_cone d (ob_id M o)) l = Val (repeat (Kc p) (List.length l))).
    { clear N. induction l as [|o l IH]; [reflexivity|]. cbn [omap]. unfold get_cone at 1. cbn [ob_id toy_methods]. rewrite (H o (or_introl eq_refl)). cbn [obind].
      cbn [ob_id toy_methods] in IH. rewrite IH by (intros; apply H; right; assumption). reflexivity. }
    rewrite E. cbn [obind]. destruct l as [|o l]; [congruence|]. cbn [List.length repeat list_intersection]. replace (S (List.length l) - 1)%nat with (List.length l) by lia.
    change [Kc p] with (repeat (Kc p) 1). rewrite Kc_union. rewrite Nat.mul_1_l. clear. unfold union_of_cones.
    assert (Q : forall n, omap (fun c => of_res (sh_cone Sh c)) (repeat (Kc p) n) = Val (repeat [0%Z] n)).
    { induction n as [|n IH]; [reflexivity|]. cbn [repeat omap]. rewrite IH. reflexivity. }
    assert (C : forall n, concat (repeat [0%Z] n) = repeat 0%Z n) by (induction n as [|n IH]; cbn; [reflexivity|rewrite IH; reflexivity]).
    destruct (repeat (Kc p) (2 ^ List.length l)) as [|c [|c' r]] eqn:E.
    - rewrite <- E, Q. cbn [obind sh_union toy_shapely]. rewrite C. reflexivity.
    - destruct (2 ^ List.length l)%nat as [|[|n]]; try discriminate. reflexivity.
    - rewrite <- E, Q. cbn [obind sh_union toy_shapely]. rewrite C. reflexivity.
  Qed.

  Definition first_toy (counter : Z) (o : Z) : Z * cluster Z (list Z) :=
    match h1 o with
    | [] => (counter, Cluster (name_of [id o]) [o] (Some (Original o (Some (level 1)))) (Some (KP 1)) (Some [0%Z]) None)
    | _ => ((counter + 1)%Z, Cluster (name_of [id o]) [o] (Some (Combination [o] (Some (h1 o)) (level 1) (Some (counter + 1)%Z))) (Some (KP 1)) (Some [0%Z]) None)
    end.
  Lemma toy_first op k counter i o : op_epsilon op = (1 / 10)%R -> (forall n i, op_timer op n i = (1, 1, 1, 1, 1)%R) -> extract_cluster (name_of [id o]) (op_previous op) = None ->
    lookup (id o) (k_robot k) = Some (Kc Ox) -> lookup (id o) (k_goal k) = Some (Kc Og) ->
    first_cluster M Sh op Ox Og k counter i o = Val (first_toy counter o).
  Proof.
    intros Ee Et Ep K1 K2. unfold first_cluster. cbv zeta. unfold get_cone. cbn [ob_id toy_methods]. rewrite K1, K2. cbn [obind]. cbn [sh_cone toy_shapely of_res obind sh_intersection].
    cbn [new_cluster c_name map ob_id toy_methods]. rewrite Ep, Et. rewrite toy_ckp by (auto; discriminate). cbn [obind id_argument List.length].
    unfold kernel_starshaped_hull. cbn [omap]. unfold hull_of. cbn [ob_is_convex toy_methods ob_convex_hull]. rewrite hull_KP. cbn [Nat.leb obind sh_union toy_shapely concat sh_is_empty].
    rewrite app_nil_r, mean_KP. unfold first_toy. destruct (h1 o) as [|z l]; cbn [null obind].
    - rewrite star. reflexivity.
    - cbn [set_id]. reflexivity.
  Qed.
  Definition later_toy (counter : Z) (c : cluster Z (list Z)) : Z * cluster Z (list Z) :=
    let l := c_obstacles c in let n := (2 ^ (List.length l - 1))%nat in
    let h := concat (map (if (n <=? 1)%nat then h1 else h2) l) in
    let ob := Combination l (if null h then None else Some h) (level n) (Some (counter + 1)%Z) in
    ((counter + 1)%Z, Cluster (c_name c) l (Some ob) (Some (KP n)) (Some (repeat 0%Z n)) (Some (obst_polygon M Sh ob))).
  Lemma toy_later op k counter all n i c : op_epsilon op = (1 / 10)%R -> (forall n i, op_timer op n i = (1, 1, 1, 1, 1)%R) -> op_previous op = None -> op_exclude_obstacles op = false ->
    c_obstacles c <> [] -> (forall o, In o (c_obstacles c) -> lookup (id o) (k_robot k) = Some (Kc Ox) /\ lookup (id o) (k_goal k) = Some (Kc Og)) ->
    later_cluster M Sh op Ox Og all k n i counter c = Val (inl (later_toy counter c)).
  Proof.
    intros Ee Et Ep Ex N K. unfold later_cluster. rewrite (toy_cones op (k_robot k) (c_obstacles c) Ox N) by (intros o Ho; apply (K o Ho)). cbn [obind].
    rewrite (toy_cones op (k_goal k) (c_obstacles c) Og N) by (intros o Ho; apply (K o Ho)). cbn [obind sh_intersection toy_shapely]. cbv zeta.
    set (m := (2 ^ (List.length (c_obstacles c) - 1))%nat). assert (Hm : (0 < m)%nat) by (unfold m; apply Nat.neq_0_lt_0, Nat.pow_nonzero; lia).
    assert (V : vanishing Sh (repeat 0%Z m) = false). { unfold vanishing. destruct m; [lia|]. cbn [repeat sh_is_empty toy_shapely null orb sh_area]. apply one_small. }
    rewrite V, Ex, Ep, Et. cbn [andb extract_last]. rewrite toy_ckp by first [exact Ee | destruct m; [lia|discriminate]]. rewrite repeat_length. cbn [obind id_argument].
    assert (H : kernel_starshaped_hull M Sh (c_obstacles c) (KP m) = Val (let h := concat (map (if (m <=? 1)%nat then h1 else h2) (c_obstacles c)) in if null h then None else Some h)).
    { unfold kernel_starshaped_hull.
      assert (O : omap (hull_of M (KP m)) (c_obstacles c) = Val (map (if (m <=? 1)%nat then h1 else h2) (c_obstacles c))).
      { generalize (c_obstacles c). induction l as [|o l IH]; [reflexivity|]. cbn [omap map]. rewrite IH. unfold hull_of at 1. cbn [ob_is_convex toy_methods ob_convex_hull]. rewrite hull_KP. destruct (m <=? 1)%nat; reflexivity. }
      rewrite O. reflexivity. }
    rewrite H. cbn [obind set_id]. rewrite mean_KP. unfold later_toy. fold m.
    assert (Fl : filter (ob_is_starshaped M) (c_obstacles c) = c_obstacles c) by (generalize (c_obstacles c); induction l as [|o l IH]; cbn; [reflexivity|f_equal; exact IH]).
    rewrite Fl. reflexivity.
  Qed.

  (** the whole run, with the kernel points kept abstract *)
  Variables (kp : nat -> RPt * RPt * RPt) (lv : nat -> RPt).
  Definition first_run (counter : Z) (o : Z) : Z * cluster Z (list Z) :=
    match h1 o with
    | [] => (counter, Cluster (name_of [id o]) [o] (Some (Original o (Some (lv 1%nat)))) (Some (kp 1%nat)) (Some [0%Z]) None)
    | _ => ((counter + 1)%Z, Cluster (name_of [id o]) [o] (Some (Combination [o] (Some (h1 o)) (lv 1%nat) (Some (counter + 1)%Z))) (Some (kp 1%nat)) (Some [0%Z]) None)
    end.
  Fixpoint firsts_run (counter : Z) (obs : list Z) : Z * list (cluster Z (list Z)) :=
    match obs with
    | [] => (counter, [])
    | o :: r => let '(c1, c) := first_run counter o in let '(c2, cls) := firsts_run c1 r in (c2, c :: cls)
    end.
  Definition later_run (counter : Z) (c : cluster Z (list Z)) : Z * cluster Z (list Z) :=
    let l := c_obstacles c in let n := (2 ^ (List.length l - 1))%nat in
    let h := concat (map (if (n <=? 1)%nat then h1 else h2) l) in
    let ob := Combination l (if null h then None else Some h) (lv n) (Some (counter + 1)%Z) in
    ((counter + 1)%Z, Cluster (c_name c) l (Some ob) (Some (kp n)) (Some (repeat 0%Z n)) (Some (obst_polygon M Sh ob))).
  Fixpoint round_run (counter : Z) (h todo : list (cluster Z (list Z))) : Z * list (cluster Z (list Z)) * list (cluster Z (list Z)) :=
    match todo with
    | [] => (counter, h, [])
    | c :: r => match history_lookup (c_name c) h with
                | Some old => let '(c1, h1', cls) := round_run counter h r in (c1, h1', old :: cls)
                | None => let '(c1, c') := later_run counter c in let '(c2, h2', cls) := round_run c1 (c' :: h) r in (c2, h2', c' :: cls)
                end
    end.
  Fixpoint rounds_run (mi : option nat) (hist : bool) (fuel n : nat) (counter : Z) (h : list (cluster Z (list Z))) (its : list (list (cluster Z (list Z)))) (cls : list (cluster Z (list Z))) (ex : bool) : outcome (loop_end Z (list Z)) :=
    if ex then
      match fuel with
      | O => NoAnswer
      | S f => let '(c1, h1', cls1) := round_run counter h cls in
               let its' := if hist then its ++ [cls1] else its in
               obind (get_intersection_clusters M Sh dedup cls1) (fun '(cls2, ex2) =>
               if match mi with Some m => (m <=? S n)%nat | None => false end then Val (Finished c1 (S n) its' cls2)
               else rounds_run mi hist f (S n) c1 h1' its' cls2 ex2)
      end
    else Val (Finished counter n its cls).
  Definition run (late : moment -> bool) (mc : bool) (mi : option nat) (hist : bool) (fuel : nat) (counter : Z) (obs : list Z) : outcome (answer Z (list Z)) :=
    let '(c1, cls) := firsts_run counter obs in
    let its := if hist then [cls] else [] in
    obind (get_intersection_clusters M Sh dedup cls) (fun '(cls1, ex) =>
    obind (rounds_run mi hist fuel 1 c1 (rev cls) its cls1 ex) (fun e =>
    match e with
    | Stopped c2 n its' => Val (default_result M (toy_options None late mc false mi hist) obs n its' c2)
    | Finished c2 n its' cls2 =>
        if mc then
          obind (convexify M Sh (toy_options None late mc false mi hist) Ox Og c2 [] cls2) (fun '(c3, in_time, cls3) =>
          if in_time : bool then Val (Answer cls3 COMPLETE n (if hist then Some (Rounds its') else None) c3)
          else Val (Answer cls3 MAX_COMPUTE_TIME_CONVEX_HULL n None c3))
        else Val (Answer cls2 COMPLETE n (if hist then Some (Rounds its') else None) c2)
    end)).
End Toy.

Section Runs.
  Variables (cl : Z -> obs_class) (id : Z -> option Z) (pol h1 h2 : Z -> list Z) (ch : list Z -> list Z).
  Hypothesis star : forall o, is_star_class (cl o) = true.
  Notation M := (toy_methods cl id pol h1 h2).
  Notation Sh := (toy_shapely ch).
  Lemma find_map_Kc (p : RPt) i : forall obs : list Z, In i (map id obs) -> lookup i (map (fun o => (id o, Kc p)) (rev obs) ++ []) = Some (Kc p).
  Proof.
    intros obs H. rewrite app_nil_r. assert (H' : In i (map id (rev obs))) by (rewrite map_rev; apply -> in_rev; exact H). revert H'. generalize (rev obs) as l. clear.
    induction l as [|o l IH]; intros H; [destruct H|]. unfold lookup. cbn. destruct (id_eqb i (id o)) eqn:E; [reflexivity|]. destruct H as [<-|H]; [rewrite id_eqb_refl in E; discriminate|]. apply (IH H).
  Qed.
  Variables (late : moment -> bool) (mc : bool) (mi : option nat) (hist : bool) (obs : list Z).
  Notation op := (toy_options None late mc false mi hist).
  Notation K := (Cones (map (fun o => (id o, Kc Ox)) (rev obs) ++ []) (map (fun o => (id o, Kc Og)) (rev obs) ++ []) (@nil (option Z * option Z * option (list Z)))).
  Hypothesis not_late : forall m, (match m with AtHull _ => False | _ => True end) -> late m = false.
  Definition inside (c : cluster Z (list Z)) : Prop := c_obstacles c <> [] /\ forall o, In o (c_obstacles c) -> In (id o) (map id obs).
  Lemma run_firsts : forall l counter i, (forall o, In o l -> In (id o) (map id obs)) -> first_clusters M Sh op Ox Og K counter i l = Val (firsts_run id h1 KP level counter l).
  Proof.
    induction l as [|o l IH]; intros counter i H; [reflexivity|]. cbn [first_clusters firsts_run].
    rewrite (toy_first cl id pol h1 h2 ch star op K counter i o); try reflexivity; [|apply find_map_Kc, H; left; reflexivity|apply find_map_Kc, H; left; reflexivity].
    cbn [obind]. change (first_toy id h1 counter o) with (first_run id h1 KP level counter o). destruct (first_run id h1 KP level counter o) as [c1 c]. rewrite IH by (intros; apply H; right; assumption). cbn [obind].
    destruct (firsts_run id h1 KP level c1 l). reflexivity.
  Qed.
  Lemma run_round n : forall todo i counter h, Forall inside todo -> starify_round M Sh op Ox Og obs K n i counter h todo =
    Val (let '(c1, h1', cls) := round_run cl id pol h1 h2 ch KP level counter h todo in (c1, h1', cls, false)).
  Proof.
    induction todo as [|c todo IH]; intros i counter h F; [reflexivity|]. inversion F as [|? ? [F1 F2] F3]; subst. cbn [starify_round round_run]. destruct (history_lookup (c_name c) h).
    - rewrite IH by exact F3. cbn [obind]. destruct (round_run _ _ _ _ _ _ _ _ _ _ todo) as [[? ?] ?]. reflexivity.
    - rewrite (toy_later cl id pol h1 h2 ch star op K counter obs n i c); try reflexivity; [|exact F1|intros o Ho; split; apply find_map_Kc, F2, Ho]. cbn [obind].
      change (later_toy cl id pol h1 h2 ch counter c) with (later_run cl id pol h1 h2 ch KP level counter c). destruct (later_run cl id pol h1 h2 ch KP level counter c) as [c1 c'].
      rewrite IH by exact F3. cbn [obind]. destruct (round_run _ _ _ _ _ _ _ _ _ _ todo) as [[? ?] ?]. reflexivity.
  Qed.
  Lemma order : set_order dedup.
  Proof. exact dedup_ok. Qed.
  Lemma toy_convex o : convex_star M o.
  Proof.
    split; [intros Cp; pose proof (star o) as So; cbn [ob_class toy_methods] in Cp; rewrite Cp in So; discriminate|]. split; [reflexivity|]. split; [eexists; reflexivity|]. split.
    - intros p. eexists. split; [reflexivity|discriminate].
    - intros [[k0 k1] k2]. cbn [ob_convex_hull toy_methods]. unfold toy_hull. eexists. reflexivity.
  Qed.
  Lemma lookup_Kc (p : RPt) i c : forall l : list Z, lookup i (map (fun o => (id o, Kc p)) l) = Some c -> In i (map id l).
  Proof.
    induction l as [|o l IH]; [discriminate|]. unfold lookup. cbn. destruct (id_eqb i (id o)) eqn:E; [|intros H; right; apply IH; exact H]. intros _. left.
    destruct i as [a|], (id o) as [b|]; cbn in E; try discriminate; [apply Z.eqb_eq in E; subst; reflexivity|reflexivity].
  Qed.
  Lemma usable_inside c : P_StarifyTotal.usable M K c -> inside c.
  Proof.
    intros [A B]. split; [exact A|]. intros o Ho. destruct (B o Ho) as [[(d & E) _] _]. rewrite app_nil_r in E. apply lookup_Kc in E. rewrite map_rev in E. apply in_rev, E.
  Qed.
  Lemma run_rounds : forall f n counter h its cls ex, loop_inv M Sh h cls ex -> Forall (P_StarifyTotal.usable M K) cls -> Forall (P_StarifyTotal.usable M K) h ->
    rounds M Sh dedup op Ox Og obs K f n counter h its cls ex = rounds_run cl id pol h1 h2 ch KP level mi hist f n counter h its cls ex.
  Proof.
    induction f as [|f IH]; intros n counter h its cls ex I U Uh; cbn [rounds rounds_run]; [reflexivity|]. destruct ex; [|reflexivity].
    cbn [op_late toy_options]. rewrite not_late by exact Logic.I.
    assert (R := run_round n cls 0%nat counter h (Forall_impl _ usable_inside U)). rewrite R.
    destruct (round_run cl id pol h1 h2 ch KP level counter h cls) as [[c1 h'] cls1]. cbn [obind]. cbn [op_return_history op_max_iterations toy_options]. cbv zeta.
    destruct I as (D & N & _). pose proof (round_spec M Sh op Ox Og obs K n cls 0%nat counter h _ R N D) as (_ & _ & C & _). specialize (C eq_refl).
    pose proof (done_has M Sh cls1 C) as P. destruct (gic_total M Sh dedup cls1 P) as (out & b & Gc). rewrite Gc. cbn [obind].
    destruct (round_inv M Sh dedup order _ _ _ _ _ _ _ _ _ _ _ _ _ _ R N D Gc) as (I' & _ & _ & L').
    destruct (round_usable M Sh op Ox Og obs K n cls 0%nat counter h c1 h' cls1 R N U Uh) as [U1 Uh1]. pose proof (gic_usable M Sh dedup order K cls1 out b P Gc U1) as Uo.
    destruct mi as [m|]; [destruct (m <=? S n)%nat; [reflexivity|]|]; apply IH; assumption.
  Qed.
  Theorem run_ok fuel counter : cluster_and_starify M Sh dedup op fuel counter Ox Og obs = run cl id pol h1 h2 ch KP level late mc mi hist fuel counter obs.
  Proof.
    unfold cluster_and_starify, run. cbn [op_workspace toy_options]. rewrite toy_prepare; [|reflexivity|intros i; apply not_late; exact Logic.I]. cbn [obind k_robot k_goal k_others].
    assert (F := run_firsts obs counter 0%nat (fun o H => in_map id obs o H)). rewrite F. destruct (firsts_run id h1 KP level counter obs) as [c1 cls]. cbn [obind op_return_history op_make_convex toy_options]. cbv zeta.
    pose proof F as F'. apply first_clusters_spec in F' as [A D]. cbn [snd] in *. pose proof (done_has M Sh cls D) as Hp.
    destruct (gic_total M Sh dedup cls Hp) as (out & b & Gc). rewrite Gc. cbn [obind].
    destruct (first_inv M Sh dedup order _ _ _ _ _ _ _ _ _ _ F Gc) as (_ & Ln & J & Lb).
    assert (U : Forall (P_StarifyTotal.usable M K) cls).
    { apply Forall_forall. intros c Hc. assert (Q : In (c_obstacles c) (map (fun o => [o]) obs)) by (rewrite <- A; apply in_map, Hc).
      apply in_map_iff in Q as (o & E & Ho). unfold P_StarifyTotal.usable. rewrite <- E. split; [discriminate|]. intros o' [<-|[]]. split.
      - split; eexists; apply find_map_Kc; apply in_map; exact Ho.
      - apply toy_convex. }
    rewrite (run_rounds fuel 1 c1 (rev cls) (if hist then [cls] else []) out b J (gic_usable M Sh dedup order K cls out b Hp Gc U) (Forall_rev U)). reflexivity.
  Qed.
End Runs.
