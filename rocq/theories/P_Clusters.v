(** Properties of get_intersection_clusters and of cluster names. *)
From Coq Require Import String Reals List Bool Arith ZArith Lia Permutation.
From Verif Require Import Num Spec M_Cg M_Motion M_Obstacle M_Clusters L_Clusters.
Import ListNotations.

Section C64.
  Context {Obs G : Type} (M : methods Obs G) (Sh : shapely G) (setl : list nat -> list nat).
  Hypothesis setl_ok : forall l, NoDup (setl l) /\ forall x, In x (setl l) <-> In x l.
  Hypothesis symmetric : forall p q, sh_intersects Sh p q = sh_intersects Sh q p.
  Notation cluster := (cluster Obs G).

  (** the polygons of the i-th and the j-th cluster intersect *)
  Definition meets (cls : list cluster) (i j : nat) : Prop :=
    exists ci cj p q, nth_error cls i = Some ci /\ nth_error cls j = Some cj /\ i <> j /\
      polygon_of M Sh ci = Some p /\ polygon_of M Sh cj = Some q /\ sh_intersects Sh p q = true.
  Definition has_polygons (cls : list cluster) : Prop := forall c, In c cls -> polygon_of M Sh c <> None.
  (** the obstacles of the clusters listed *)
  Definition gathered (cls : list cluster) (part : list nat) : list Obs :=
    flat_map (fun j => match nth_error cls j with Some c => c_obstacles c | None => [] end) part.
  (** [c'] is [c] with the polygon stored *)
  Definition with_cache (c c' : cluster) : Prop :=
    c_name c' = c_name c /\ c_obstacles c' = c_obstacles c /\ c_obstacle c' = c_obstacle c /\
    c_kernel_points c' = c_kernel_points c /\ c_admissible_kernel c' = c_admissible_kernel c /\ c_polygon c' = polygon_of M Sh c.

  Definition meet_b (cls : list cluster) (i j : nat) : bool :=
    let pols := map snd (map (read_polygon M Sh) cls) in polygons_meet Sh (nth i pols None) (nth j pols None).
  Lemma nth_pols cls i : nth i (map snd (map (read_polygon M Sh) cls)) None = match nth_error cls i with Some c => polygon_of M Sh c | None => None end.
  Proof. rewrite map_map. revert i. induction cls as [|c cls IH]; intros [|i]; cbn; auto. Qed.
  Lemma meet_b_spec cls i j : meet_b cls i j = true <-> exists ci cj p q, nth_error cls i = Some ci /\ nth_error cls j = Some cj /\
      polygon_of M Sh ci = Some p /\ polygon_of M Sh cj = Some q /\ sh_intersects Sh p q = true.
  Proof.
    unfold meet_b. cbv zeta. rewrite !nth_pols. split.
    - destruct (nth_error cls i) as [ci|]; [|discriminate]. destruct (nth_error cls j) as [cj|]; [|destruct (polygon_of M Sh ci); discriminate].
      destruct (polygon_of M Sh ci) as [p|] eqn:P; [|discriminate]. destruct (polygon_of M Sh cj) as [q|] eqn:Q; [|discriminate].
      cbn. intros E. exists ci, cj, p, q. auto.
    - intros (ci & cj & p & q & -> & -> & -> & -> & E). exact E.
  Qed.
  Lemma touch_meets cls i j : touch (meet_b cls) (List.length cls) i j <-> ((i < j)%nat /\ meets cls i j).
  Proof.
    unfold touch, meets. rewrite meet_b_spec. split.
    - intros [H (ci & cj & p & q & A & B & C)]. split; [lia|]. exists ci, cj, p, q. repeat split; try tauto; lia.
    - intros [H (ci & cj & p & q & A & B & N & C)]. split.
      + assert (j < List.length cls)%nat by (apply nth_error_Some; congruence). lia.
      + exists ci, cj, p, q. tauto.
  Qed.
  Lemma meets_sym cls i j : meets cls i j -> meets cls j i.
  Proof. intros (ci & cj & p & q & A & B & N & P & Q & E). exists cj, ci, q, p. rewrite symmetric. repeat split; auto. Qed.
  Lemma linked_meets cls i j : linked (List.length cls) (touch (meet_b cls) (List.length cls)) i j <-> linked (List.length cls) (meets cls) i j.
  Proof.
    split; induction 1 as [i Hi|i j k Hij IH Hk Hr]; try (constructor; assumption).
    - eapply linked_step; [exact IH|exact Hk|]. rewrite !touch_meets in Hr. tauto.
    - eapply linked_step; [exact IH|exact Hk|]. rewrite !touch_meets.
      assert (N : j <> k). { destruct Hr as [(? & ? & ? & ? & _ & _ & N & _)|(? & ? & ? & ? & _ & _ & N & _)]; congruence. }
      destruct (lt_dec j k).
      + left. split; [assumption|]. destruct Hr as [H|H]; [exact H|apply meets_sym, H].
      + right. split; [lia|]. destruct Hr as [H|H]; [apply meets_sym, H|exact H].
  Qed.
  Lemma missing_false cls : has_polygons cls -> existsb missing (map snd (map (read_polygon M Sh) cls)) = false.
  Proof.
    intros H. destruct (existsb _ _) eqn:E; [|reflexivity]. exfalso. apply existsb_exists in E as (o & Ho & E).
    rewrite map_map in Ho. apply in_map_iff in Ho as (c & <- & Hc). apply (H c Hc). unfold polygon_of. destruct (snd (read_polygon M Sh c)); [discriminate|reflexivity].
  Qed.
  Lemma gather_map cls part : flat_map (fun j => nth j (map c_obstacles cls) []) part = gathered cls part.
  Proof.
    unfold gathered. apply flat_map_ext. intros j. revert j. induction cls as [|c cls IH]; intros [|j]; cbn; auto.
  Qed.
  Lemma flat_map_parts {B} (f : list nat -> B) L :
    flat_map (fun p => match p with [] => [] | _ => [f p] end) L = map f (filter (fun l => match l with [] => false | _ => true end) L).
  Proof. induction L as [|[|a l] L IH]; cbn; [reflexivity|exact IH|]. rewrite IH. reflexivity. Qed.
  Lemma gic_value cls : has_polygons cls -> get_intersection_clusters M Sh setl cls =
    Val (if intersections_exist (meet_b cls) (List.length cls)
         then (map (fun p => new_cluster M (gathered cls p)) (parts (meet_b cls) setl (List.length cls)), true)
         else (map (fun c => fst (read_polygon M Sh c)) cls, false)).
  Proof.
    intros H. unfold get_intersection_clusters. rewrite missing_false by exact H. rewrite andb_false_r.
    change (fun i j => polygons_meet Sh (nth i (map snd (map (read_polygon M Sh) cls)) None) (nth j (map snd (map (read_polygon M Sh) cls)) None)) with (meet_b cls).
    cbv zeta. destruct (intersections_exist _ _).
    - do 2 f_equal. unfold parts. rewrite flat_map_parts. apply map_ext. intros p. f_equal. apply gather_map.
    - rewrite map_map. reflexivity.
  Qed.
  Lemma read_cache c : with_cache c (fst (read_polygon M Sh c)).
  Proof.
    unfold with_cache, polygon_of, read_polygon. destruct (c_polygon c) eqn:E; cbn; [repeat split; auto|].
    destruct (c_obstacle c) eqn:F; cbn; repeat split; auto.
  Qed.
  Lemma gathered_app cls p q : gathered cls (p ++ q) = gathered cls p ++ gathered cls q.
  Proof. unfold gathered. apply flat_map_app. Qed.
  Lemma gathered_seq cls : gathered cls (seq 0 (List.length cls)) = flat_map c_obstacles cls.
  Proof.
    unfold gathered. assert (Q : forall pre, flat_map (fun j => match nth_error (pre ++ cls) j with Some c => c_obstacles c | None => [] end)
        (seq (List.length pre) (List.length cls)) = flat_map c_obstacles cls).
    { induction cls as [|c cls IH]; intros pre; [reflexivity|]. cbn [List.length seq flat_map].
      rewrite nth_error_app2, Nat.sub_diag by lia. cbn [nth_error]. f_equal.
      specialize (IH (pre ++ [c])). rewrite <- app_assoc in IH. cbn [app] in IH. rewrite <- IH, app_length. cbn [List.length].
      rewrite Nat.add_1_r. reflexivity. }
    apply (Q []).
  Qed.
  Lemma gathered_perm cls p q : Permutation p q -> Permutation (gathered cls p) (gathered cls q).
  Proof. unfold gathered. intros H. apply Permutation_flat_map. exact H. Qed.

  Theorem C64_connected_components : forall cls : list cluster, has_polygons cls ->
    exists out b, get_intersection_clusters M Sh setl cls = Val (out, b) /\
      (b = true <-> exists i j, meets cls i j) /\
      (b = false -> Forall2 with_cache cls out) /\
      (b = true -> exists parts, out = map (fun p => new_cluster M (gathered cls p)) parts /\
        Permutation (concat parts) (seq 0 (List.length cls)) /\
        (forall p, In p parts -> p <> []) /\
        (forall p i j, In p parts -> In i p -> (In j p <-> linked (List.length cls) (meets cls) i j)) /\
        ForallOrdPairs (fun p q => exists a, In a p /\ forall b, In b q -> (a < b)%nat) parts).
  Proof.
    intros cls H. rewrite (gic_value cls H).
    destruct (intersections_exist (meet_b cls) (List.length cls)) eqn:E; eexists; eexists; (split; [reflexivity|]).
    - split; [|split; [discriminate|intros _]].
      + split; [intros _|reflexivity]. apply exists_true in E as (i & j & T). apply touch_meets in T. exists i, j. tauto.
      + exists (parts (meet_b cls) setl (List.length cls)). split; [reflexivity|]. split; [apply parts_perm; exact setl_ok|].
        split; [intros p; apply parts_nonempty; exact setl_ok|]. split.
        * intros p i j P I. rewrite (part_component _ _ setl_ok _ p i j P I). apply linked_meets.
        * pose proof (parts_sorted (meet_b cls) setl setl_ok (List.length cls)) as S.
          assert (Mn : forall p, In p (parts (meet_b cls) setl (List.length cls)) -> exists r, root_of p r).
          { intros p P. apply (part_min _ _ setl_ok _ p P). }
          revert S Mn. generalize (parts (meet_b cls) setl (List.length cls)) as L. induction L as [|p L IH]; intros S Mn; [constructor|].
          inversion S as [|? ? F F']; subst. constructor.
          -- apply Forall_forall. intros q Q. rewrite Forall_forall in F. destruct (Mn p (or_introl eq_refl)) as [a A]. exists a. split; [apply A|].
             intros b B. destruct (Mn q (or_intror Q)) as [c C]. pose proof (F q Q a c A C). pose proof (proj2 C b B). lia.
          -- apply IH; [exact F'|]. intros q Q. apply Mn. right. exact Q.
    - split; [|split; [intros _|discriminate]].
      + split; [discriminate|]. intros (i & j & T). exfalso.
        assert (N : i <> j) by (destruct T as (? & ? & ? & ? & _ & _ & N & _); exact N).
        assert (X : intersections_exist (meet_b cls) (List.length cls) = true); [|congruence]. apply exists_true.
        destruct (lt_dec i j); [exists i, j|exists j, i]; apply touch_meets; split; try lia; [exact T|apply meets_sym, T].
      + clear. induction cls as [|c cls IH]; cbn; constructor; [apply read_cache|exact IH].
  Qed.

  Theorem C65_preserves_obstacles : forall (cls out : list cluster) b, has_polygons cls ->
    get_intersection_clusters M Sh setl cls = Val (out, b) ->
    Permutation (flat_map c_obstacles out) (flat_map c_obstacles cls) /\
    (b = true -> (List.length out < List.length cls)%nat) /\ (b = false -> List.length out = List.length cls).
  Proof.
    intros cls out b H E. rewrite gic_value in E by exact H.
    destruct (intersections_exist (meet_b cls) (List.length cls)) eqn:X; injection E as <- <-.
    - split; [|split; [intros _|discriminate]].
      + rewrite flat_map_concat_map, map_map. cbn [new_cluster c_obstacles].
        assert (Q : forall L, concat (map (gathered cls) L) = gathered cls (concat L)).
        { induction L as [|p L IH]; [reflexivity|]. cbn [map concat]. rewrite gathered_app, IH. reflexivity. }
        rewrite Q, <- gathered_seq. apply gathered_perm. apply parts_perm. exact setl_ok.
      + rewrite map_length. apply parts_fewer; [exact setl_ok|exact X].
    - split; [|split; [discriminate|intros _; apply map_length]].
      replace (flat_map c_obstacles (map (fun c => fst (read_polygon M Sh c)) cls)) with (flat_map c_obstacles cls); [reflexivity|].
      clear. induction cls as [|c cls IH]; [reflexivity|]. cbn [map flat_map]. rewrite <- IH. f_equal. symmetry. apply (read_cache c).
  Qed.
End C64.
Print Assumptions C64_connected_components.
Print Assumptions C65_preserves_obstacles.

(** three clusters over a line: the first and the last meet *)
Definition seg_methods : methods Z (Z * Z) :=
  Methods Z (Z * Z) Some (fun _ => CEllipse) (fun _ => true) (fun _ => true) (fun o => (o, o + 2)%Z) (fun o => Ret (o, o + 2)%Z)
    (fun _ _ => Ret []) (fun _ _ => true) (fun _ => []) (fun o _ => Val (o, o)) (fun o _ => Val (o, o)) (fun _ => (0, 0)%R).
Definition seg_meet (p q : Z * Z) : bool := (fst p <=? snd q)%Z && (fst q <=? snd p)%Z.
Definition seg_shapely : shapely (Z * Z) :=
  Shapely (Z * Z) (fun _ => 1%R) (fun _ => false) (fun p _ => p) (fun p _ => p) (fun l => hd (0, 0)%Z l) (fun _ _ => true) seg_meet
    (fun _ _ => false) (fun _ => (0, 0)%R) (fun _ p => Ret p) (fun g _ _ => Ret [g]) (fun _ => None) (fun _ _ => Ret 1%R) (fun g => Ret g)
    (fun _ => Ret (0, 0)%Z).
Definition dedup (l : list nat) : list nat := nodup Nat.eq_dec l.
Lemma dedup_ok l : NoDup (dedup l) /\ forall x, In x (dedup l) <-> In x l.
Proof. split; [apply NoDup_nodup|intros x; apply nodup_In]. Qed.
Example C64_example :
  let cls := map (fun o => new_cluster seg_methods [o]) [1; 10; 3]%Z in
  (forall p q, sh_intersects seg_shapely p q = sh_intersects seg_shapely q p) /\ has_polygons seg_methods seg_shapely cls /\
  exists out, get_intersection_clusters seg_methods seg_shapely dedup cls = Val (out, true) /\
    map c_obstacles out = [[1; 3]; [10]]%Z /\ map c_name out = ["1_3"; "10"]%string.
Proof.
  cbv zeta. split; [intros [a b] [c d]; cbn; unfold seg_meet; cbn; apply andb_comm|]. split.
  - intros c [<-|[<-|[<-|[]]]]; cbn; discriminate.
  - eexists. split; [vm_compute; reflexivity|]. vm_compute. split; reflexivity.
Qed.

(** C70: the name determines the sequence of ids *)
Theorem C70_names : forall {Obs G} (M : methods Obs G) (l1 l2 : list Obs),
  c_name (new_cluster M l1) = c_name (new_cluster M l2) <-> map (ob_id M) l1 = map (ob_id M) l2.
Proof. intros Obs G M l1 l2. cbn [new_cluster c_name]. split; [apply name_inj|intros ->; reflexivity]. Qed.
Print Assumptions C70_names.
Example C70_example : name_of [Some 1; Some 12]%Z = "1_12"%string /\ name_of [Some 11; Some 2]%Z = "11_2"%string /\ name_of [None; Some 3%Z] = "None_3"%string.
Proof. repeat split; reflexivity. Qed.

(** C81: the name depends on the order in which the obstacles came together *)
Theorem C81_order_refuted : exists (M : methods Z (Z * Z)) (Sh1 Sh2 : shapely (Z * Z)) (setl : list nat -> list nat) (c1 c2 : list (cluster Z (Z * Z))),
  (forall l, NoDup (setl l) /\ forall x, In x (setl l) <-> In x l) /\
  let start := map (fun o => new_cluster M [o]) [1; 2; 3]%Z in
  (exists mid, get_intersection_clusters M Sh1 setl start = Val (mid, true) /\
     get_intersection_clusters M Sh2 setl (map (fun c => Cluster (c_name c) (c_obstacles c) (Some (Original 1%Z None)) None None None) mid) = Val (c1, true)) /\
  get_intersection_clusters M Sh2 setl start = Val (c2, true) /\
  map c_name c1 = ["1_3_2"]%string /\ map c_name c2 = ["1_2_3"]%string /\
  Permutation (flat_map c_obstacles c1) (flat_map c_obstacles c2).
Proof.
  set (M := Methods Z (Z * Z) Some (fun _ => CEllipse) (fun _ => true) (fun _ => true) (fun o => (o, o)) (fun o => Ret (o, o))
    (fun _ _ => Ret []) (fun _ _ => true) (fun _ => []) (fun o _ => Val (o, o)) (fun o _ => Val (o, o)) (fun _ => (0, 0)%R)).
  set (S0 := fun f => Shapely (Z * Z) (fun _ => 1%R) (fun _ => false) (fun p _ => p) (fun p _ => p) (fun l => hd (0, 0)%Z l) (fun _ _ => true) f
    (fun _ _ => false) (fun _ => (0, 0)%R) (fun _ p => Ret p) (fun g _ _ => Ret [g]) (fun _ => None) (fun _ _ => Ret 1%R) (fun g => Ret g)
    (fun _ => Ret (0, 0)%Z)).
  exists M, (S0 (fun p q => Z.eqb (fst p + fst q) 4 || Z.eqb (fst p) (fst q))%Z), (S0 (fun _ _ => true)), dedup. do 2 eexists.
  split; [exact dedup_ok|]. cbv zeta. split; [eexists; split; vm_compute; reflexivity|].
  split; [vm_compute; reflexivity|]. split; [vm_compute; reflexivity|]. split; [vm_compute; reflexivity|].
  vm_compute. apply perm_skip, perm_swap.
Qed.
Print Assumptions C81_order_refuted.
