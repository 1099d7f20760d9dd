(** C127: the admissible kernels that cluster_and_starify leaves in its clusters, in particular with exclude_obstacles. *)
From Coq Require Import String Reals List Bool Arith ZArith Lia Lra Permutation.
From Verif Require Import Num Spec M_Cg M_Motion M_Obstacle M_Clusters P_Clusters M_StarHull M_Starify L_Geom L_Cg L_Starify P_Starify P_StarifyResult P_StarifyTotal
  W_Starify P_StarifyRefuted.
Import ListNotations.

Section Exclude.
  Context {Obs G : Type} (M : methods Obs G) (Sh : shapely G) (setl : list nat -> list nat).
  Notation cluster := (cluster Obs G).
  Notation call := (cluster_and_starify M Sh setl).
  Hypothesis setl_ok : set_order setl.

  (** *** what the kernel of a cluster is meant to be *)
  (** the admissible kernel of one obstacle for one point *)
  Definition cone_seen (o : Obs) (y : RPt) : outcome (cone R) :=
    obind (of_res (admissible_kernel (ob_tangent_points M o) y)) (fun k => match k with Some c => Val c | None => Raise AttributeErr end).
  (** Cone.list_intersection of the kernels of several obstacles, as a polygon *)
  Definition seen_from (op : options Obs G) (y : RPt) (l : list Obs) : outcome G :=
    obind (omap (fun o => cone_seen o y) l) (fun cs =>
    match list_intersection cs with IndexError => Raise IndexErr | EmptyPolygon => Val (op_empty op) | UnionOf l => union_of_cones Sh l end).
  (** [p] lies in the kernels of the obstacles [l] for the extreme points of every other obstacle that has all of them outside *)
  Definition spares (den : G -> RPt -> Prop) (obs l : list Obs) (p : RPt) : Prop :=
    forall o e v g, In o l -> In e obs -> ob_id M e <> ob_id M o -> forallb (ob_exterior_point M o) (ob_extreme_points M e) = true ->
      In v (ob_extreme_points M e) -> kernel_polygon M Sh o v = Val g -> den g p.

  (** *** the dictionaries *)
  Lemma id_eqb_true a b : id_eqb a b = true <-> a = b.
  Proof. destruct a, b; cbn; split; try congruence; rewrite ?Z.eqb_eq; congruence. Qed.
  Lemma id_eqb_neq a b : id_eqb a b = false <-> a <> b.
  Proof. rewrite <- id_eqb_true. destruct (id_eqb a b); split; congruence. Qed.
  Lemma lookup_cons {A} i j (a : A) d : lookup i ((j, a) :: d) = if id_eqb i j then Some a else lookup i d.
  Proof. unfold lookup. cbn. destruct (id_eqb i j); reflexivity. Qed.
  Lemma lookup2_cons {A} i j i' j' (a : A) d : lookup2 i j ((i', j', a) :: d) = if id_eqb i i' && id_eqb j j' then Some a else lookup2 i j d.
  Proof. unfold lookup2. cbn. destruct (id_eqb i i' && id_eqb j j'); reflexivity. Qed.

  Lemma excluding_all_spec o : forall es d d', excluding_all M Sh o es d = Val d' -> NoDup (map (ob_id M) es) ->
    (forall e, In e es -> ob_id M e <> ob_id M o -> exists g, excluding M Sh o e = Val g /\ lookup2 (ob_id M o) (ob_id M e) d' = Some g) /\
    (forall i j, i <> ob_id M o \/ ~ In j (map (ob_id M) es) -> lookup2 i j d' = lookup2 i j d).
  Proof.
    induction es as [|e es IH]; intros d d' H N; cbn [excluding_all] in H; [injection H as <-; split; [intros ? []|reflexivity]|].
    inversion N as [|? ? N1 N2]; subst. destruct (id_eqb (ob_id M e) (ob_id M o)) eqn:I.
    - apply id_eqb_true in I. destruct (IH _ _ H N2) as [A B]. split.
      + intros e' [<-|He] Ne; [congruence|auto].
      + intros i j [Hi|Hj]; apply B; [left; exact Hi|right; intros Hj'; apply Hj; right; exact Hj'].
    - apply id_eqb_neq in I. obinv H. destruct (IH _ _ H N2) as [A B]. split.
      + intros e' [<-|He] Ne; [|auto]. exists a. split; [exact E|]. rewrite B by (right; exact N1). rewrite lookup2_cons, !(proj2 (id_eqb_true _ _) eq_refl). reflexivity.
      + intros i j Hij. rewrite B by (destruct Hij as [Hi|Hj]; [left; exact Hi|right; intros Hj'; apply Hj; right; exact Hj']). rewrite lookup2_cons.
        destruct (id_eqb i (ob_id M o) && id_eqb j (ob_id M e)) eqn:Q; [exfalso|reflexivity]. apply andb_true_iff in Q as [Q1 Q2]. apply id_eqb_true in Q1. apply id_eqb_true in Q2.
        destruct Hij as [Hi|Hj]; [contradiction|]. apply Hj. left. congruence.
  Qed.

  (* the entries of the three dictionaries for an obstacle *)
  Definition entry_ok (op : options Obs G) (x xg : RPt) (all : list Obs) (k : cones G) (o : Obs) : Prop :=
    get_cone (k_robot k) (ob_id M o) = cone_seen o x /\ get_cone (k_goal k) (ob_id M o) = cone_seen o xg /\
    (op_exclude_obstacles op = true -> forall e, In e all -> ob_id M e <> ob_id M o ->
      exists g, excluding M Sh o e = Val g /\ lookup2 (ob_id M o) (ob_id M e) (k_others k) = Some g).
  Lemma prepare_spec op x xg all : NoDup (map (ob_id M) all) -> forall l i k k', prepare M Sh op x xg all i l k = Val (Some k') -> NoDup (map (ob_id M) l) ->
    (forall o, In o l -> entry_ok op x xg all k' o) /\
    (forall i, ~ In i (map (ob_id M) l) -> lookup i (k_robot k') = lookup i (k_robot k) /\ lookup i (k_goal k') = lookup i (k_goal k) /\
       forall j, lookup2 i j (k_others k') = lookup2 i j (k_others k)).
  Proof.
    intros Na. induction l as [|o l IH]; intros i k k' H N; cbn [prepare] in H; [injection H as <-; split; [intros ? []|auto]|].
    inversion N as [|? ? N1 N2]; subst. destruct (op_late op _); [discriminate|]. obinv H. obinv H. destruct a as [cx|]; [|discriminate]. destruct a0 as [cg|]; [|discriminate].
    obinv H. destruct (IH _ _ _ H N2) as [A B]. cbn [k_robot k_goal k_others] in B.
    assert (C : forall i, (op_exclude_obstacles op = false \/ i <> ob_id M o) -> forall j, lookup2 i j a = lookup2 i j (k_others k)).
    { intros i' Hi j. destruct (op_exclude_obstacles op) eqn:X; [|injection E1 as <-; reflexivity]. apply (excluding_all_spec _ _ _ _ E1 Na). left. destruct Hi; [discriminate|assumption]. }
    split.
    - intros o' [<-|Ho]; [|auto]. destruct (B (ob_id M o) N1) as (B1 & B2 & B3). unfold entry_ok, get_cone, cone_seen. rewrite B1, B2, E, E0, !lookup_cons, !(proj2 (id_eqb_true _ _) eq_refl).
      cbn [obind]. split; [reflexivity|]. split; [reflexivity|]. intros X e He Ne. rewrite X in E1. destruct (excluding_all_spec _ _ _ _ E1 Na) as [D _]. destruct (D e He Ne) as (g & D1 & D2).
      exists g. rewrite B3. auto.
    - intros i' Hi. assert (Ni : i' <> ob_id M o) by (intros ->; apply Hi; left; reflexivity).
      destruct (B i') as (B1 & B2 & B3); [intros Hi'; apply Hi; right; exact Hi'|]. rewrite B1, B2, !lookup_cons, (proj2 (id_eqb_neq _ _) Ni). split; [reflexivity|]. split; [reflexivity|].
      intros j. rewrite B3. apply C. right. exact Ni.
  Qed.
  Lemma cones_polygon_seen op d y l : (forall o, In o l -> get_cone d (ob_id M o) = cone_seen o y) -> cones_polygon M Sh op d l = seen_from op y l.
  Proof.
    intros H. unfold cones_polygon, seen_from. replace (omap (fun o => get_cone d (ob_id M o)) l) with (omap (fun o => cone_seen o y) l); [reflexivity|].
    induction l as [|o l IH]; [reflexivity|]. cbn [omap]. rewrite (H o (or_introl eq_refl)), IH by (intros; apply H; right; assumption). reflexivity.
  Qed.

  (** *** excluding, with exact intersections *)
  Variable den : G -> RPt -> Prop.
  Hypothesis den_intersection : forall g h p, den (sh_intersection Sh g h) p <-> den g p /\ den h p.
  Lemma kernel_polygons_den o p : forall vs acc g, kernel_polygons M Sh o acc vs = Val g ->
    (den g p <-> den acc p /\ forall v h, In v vs -> kernel_polygon M Sh o v = Val h -> den h p).
  Proof.
    induction vs as [|v vs IH]; intros acc g H; cbn [kernel_polygons] in H; [injection H as <-; firstorder|]. obinv H. rewrite (IH _ _ H), den_intersection. split.
    - intros [[A B] C]. split; [exact A|]. intros v' h [<-|Hv] Hh; [congruence|eauto].
    - intros [A B]. split; [split; [exact A|eapply B; [left; reflexivity|exact E]]|]. intros; eapply B; [right|]; eassumption.
  Qed.
  Lemma excluding_den o e p r : excluding M Sh o e = Val r ->
    match r with
    | Some g => forallb (ob_exterior_point M o) (ob_extreme_points M e) = true /\
                (den g p <-> forall v h, In v (ob_extreme_points M e) -> kernel_polygon M Sh o v = Val h -> den h p)
    | None => forallb (ob_exterior_point M o) (ob_extreme_points M e) = false
    end.
  Proof.
    unfold excluding. destruct (is_polygon_class _); [|discriminate]. cbv zeta. destruct (forallb _ _); [|intros H; injection H as <-; reflexivity].
    destruct (ob_extreme_points M e) as [|v vs]; [discriminate|]. intros H. obinv H. obinv H. injection H as <-. split; [reflexivity|].
    rewrite (kernel_polygons_den o p vs a a0 E0). split.
    - intros [A B] v' h [<-|Hv] Hh; [congruence|eauto].
    - intros A. split; [eapply A; [left; reflexivity|exact E]|]. intros; eapply A; [right|]; eassumption.
  Qed.
  Lemma exclude_from_den d p all : forall l g, den (exclude_from M Sh d all l g) p <->
    den g p /\ forall o e h, In o l -> In e all -> ob_id M e <> ob_id M o -> lookup2 (ob_id M o) (ob_id M e) d = Some (Some h) -> den h p.
  Proof.
    assert (Inner : forall o es g, den (fold_left (fun g o_ex => if id_eqb (ob_id M o_ex) (ob_id M o) then g
        else match lookup2 (ob_id M o) (ob_id M o_ex) d with Some (Some e) => sh_intersection Sh g e | _ => g end) es g) p <->
      den g p /\ forall e h, In e es -> ob_id M e <> ob_id M o -> lookup2 (ob_id M o) (ob_id M e) d = Some (Some h) -> den h p).
    { intros o. induction es as [|e es IH]; intros g; cbn [fold_left]; [firstorder|]. rewrite IH. clear IH. destruct (id_eqb (ob_id M e) (ob_id M o)) eqn:I.
      - apply id_eqb_true in I. split; intros [A B]; (split; [exact A|]); intros e' h He Ne L; [destruct He as [<-|He]; [congruence|eauto]|eapply B; [right|..]; eassumption].
      - apply id_eqb_neq in I. destruct (lookup2 (ob_id M o) (ob_id M e) d) as [[e'|]|] eqn:L.
        + rewrite den_intersection. split.
          * intros [[A B] C]. split; [exact A|]. intros e1 h [<-|He] Ne L1; [congruence|eauto].
          * intros [A B]. split; [split; [exact A|eapply B; [left; reflexivity|exact I|exact L]]|]. intros; eapply B; [right|..]; eassumption.
        + split; intros [A B]; (split; [exact A|]); intros e1 h He Ne L1; [destruct He as [<-|He]; [congruence|eauto]|eapply B; [right|..]; eassumption].
        + split; intros [A B]; (split; [exact A|]); intros e1 h He Ne L1; [destruct He as [<-|He]; [congruence|eauto]|eapply B; [right|..]; eassumption]. }
    unfold exclude_from. induction l as [|o l IH]; intros g; cbn [fold_left]; [firstorder|]. rewrite IH, Inner. clear IH. split.
    - intros [[A B] C]. split; [exact A|]. intros o' e h [<-|Ho]; [apply B|apply C, Ho].
    - intros [A B]. split; [split; [exact A|]|]; [intros e h He Ne L; apply (B o e h (or_introl eq_refl) He Ne L)|intros o' e h Ho He Ne L; apply (B o' e h (or_intror Ho) He Ne L)].
  Qed.

  Variables (op : options Obs G) (x xg : RPt) (obs : list Obs).
  Hypothesis ids : NoDup (map (ob_id M) obs).
  (** the kernel of a cluster: that of the robot and that of the goal intersected; with exclude_obstacles, and for several obstacles, restricted to the
      points that spare the other obstacles unless nothing is left then *)
  Definition kernel_meant (l : list Obs) (adm : G) : Prop :=
    exists ar ag, seen_from op x l = Val ar /\ seen_from op xg l = Val ag /\
      if op_exclude_obstacles op && (1 <? List.length l)%nat
      then exists ex, (forall p, den ex p <-> (den ar p /\ den ag p) /\ spares den obs l p) /\ adm = if vanishing Sh ex then sh_intersection Sh ar ag else ex
      else adm = sh_intersection Sh ar ag.

  Lemma single_seen y o c g : cone_seen o y = Val c -> of_res (sh_cone Sh c) = Val g -> seen_from op y [o] = Val g.
  Proof. intros H K. unfold seen_from. cbn [omap]. rewrite H. cbn. exact K. Qed.
  Definition Q (c : cluster) : Prop := incl (c_obstacles c) obs /\ forall adm, c_admissible_kernel c = Some adm -> kernel_meant (c_obstacles c) adm.
  Definition all_ok (k : cones G) : Prop := forall o, In o obs -> entry_ok op x xg obs k o.

  (* some geometry with the points that spare the other obstacles: built like the code builds it, from the intersection [g] *)
  Lemma exclude_spares k l g p : op_exclude_obstacles op = true -> all_ok k -> incl l obs ->
    (den (exclude_from M Sh (k_others k) obs l g) p <-> den g p /\ spares den obs l p).
  Proof.
    intros X K I. rewrite exclude_from_den. split; intros [A B]; (split; [exact A|]).
    - intros o e v h Ho He Ne F Hv Hh. destruct (K o (I o Ho)) as (_ & _ & D). destruct (D X e He Ne) as (r & D1 & D2). pose proof (excluding_den o e p r D1) as R1.
      destruct r as [r|]; [|congruence]. destruct R1 as [_ R1]. apply (proj1 R1 (B o e r Ho He Ne D2) v h Hv Hh).
    - intros o e h Ho He Ne L. destruct (K o (I o Ho)) as (_ & _ & D). destruct (D X e He Ne) as (r & D1 & D2). pose proof (excluding_den o e p r D1) as R1.
      assert (r = Some h) as -> by congruence. destruct R1 as [F R1]. apply R1. intros v h' Hv Hh. apply (B o e v h' Ho He Ne F Hv Hh).
  Qed.

  (** *** kept by the rounds *)
  Lemma Q_read c : Q c -> Q (fst (read_polygon M Sh c)).
  Proof. intros H. replace (Q (fst (read_polygon M Sh c))) with (Q c); [exact H|]. unfold Q, read_polygon. destruct (c_polygon c); [reflexivity|]. destruct (c_obstacle c); reflexivity. Qed.
  Lemma Q_gic cls out b : has_polygons M Sh cls -> get_intersection_clusters M Sh setl cls = Val (out, b) -> Forall Q cls -> Forall Q out.
  Proof.
    intros P H F. pose proof (C65_preserves_obstacles M Sh setl setl_ok cls out b P H) as (Pm & _). rewrite Forall_forall in F.
    assert (I : incl (flat_map c_obstacles cls) obs). { intros o Ho. apply in_flat_map in Ho as (c & Hc & Ho). destruct (F c Hc) as [A _]. apply A, Ho. }
    assert (I' : forall c, In c out -> incl (c_obstacles c) obs).
    { intros c Hc o Ho. apply I. apply (Permutation_in _ Pm). apply in_flat_map. eauto. }
    apply Forall_forall. intros c Hc. pose proof (I' c Hc) as Ic. clear I' I Pm. rewrite (gic_value M Sh setl cls P) in H.
    destruct (intersections_exist _ _); injection H as <- <-; apply in_map_iff in Hc as (d & <- & Hd).
    - split; [exact Ic|]. discriminate.
    - apply Q_read, F, Hd.
  Qed.
  (* the clusters of single obstacles are all in the history *)
  Definition singles (h : list cluster) : Prop := forall o, In o obs -> history_lookup (name_of [ob_id M o]) h <> None.
  Lemma singles_cons c h : singles h -> singles (c :: h).
  Proof. intros H o Ho. unfold history_lookup. cbn [find]. destruct (String.eqb _ _); [discriminate|]. apply H, Ho. Qed.
  Lemma later_Q k n i counter cl c' cl' : all_ok k -> incl (c_obstacles cl) obs -> List.length (c_obstacles cl) <> 1%nat ->
    later_cluster M Sh op x xg obs k n i counter cl = Val (inl (c', cl')) -> Q cl'.
  Proof.
    intros K I L H. unfold later_cluster in H.
    rewrite (cones_polygon_seen op (k_robot k) x) in H by (intros o Ho; apply K, I, Ho). rewrite (cones_polygon_seen op (k_goal k) xg) in H by (intros o Ho; apply K, I, Ho).
    obinvs H. destruct (vanishing Sh _); [discriminate|]. cbv zeta in H. obinvs H. destruct (set_id counter a2) as [cc oid]. injection H as <- <-.
    split; cbn [c_obstacles c_admissible_kernel]; [exact I|]. intros adm Ea. injection Ea as <-. exists a, a0. split; [exact E|]. split; [exact E0|].
    assert (Ne : c_obstacles cl <> []). { intros Z0. rewrite Z0 in E. discriminate. }
    replace (1 <? List.length (c_obstacles cl))%nat with true by (symmetry; apply Nat.ltb_lt; destruct (c_obstacles cl) as [|? [|? ?]]; cbn in *; [congruence|lia|lia]).
    rewrite andb_true_r. destruct (op_exclude_obstacles op) eqn:X; [|reflexivity]. exists (exclude_from M Sh (k_others k) obs (c_obstacles cl) (sh_intersection Sh a a0)).
    split; [intros p; rewrite exclude_spares by assumption; rewrite den_intersection; reflexivity|]. cbn [andb]. destruct (vanishing Sh _); reflexivity.
  Qed.
  Lemma round_Q k n : all_ok k -> forall todo i counter h c' h' cls, starify_round M Sh op x xg obs k n i counter h todo = Val (c', h', cls, false) ->
    Forall (named M) todo -> singles h -> Forall Q todo -> Forall Q h -> Forall Q cls /\ Forall Q h' /\ singles h'.
  Proof.
    intros K. induction todo as [|cl todo IH]; intros i counter h c' h' cls H Nt Sg Ft Fh; cbn [starify_round] in H; [injection H as <- <- <-; auto|].
    inversion Ft as [|? ? F1 F2]; subst. inversion Nt as [|? ? N1 N2]; subst. destruct (history_lookup (c_name cl) h) as [old|] eqn:L.
    - obinv H. destruct a as [[[c1 h1] cls1] q]. injection H as <- <- <- ->. destruct (IH _ _ _ _ _ _ E N2 Sg F2 Fh) as (A & B & C). split; [|auto]. constructor; [|exact A].
      apply history_some in L as [L _]. rewrite Forall_forall in Fh. apply Fh, L.
    - obinv H. destruct a as [[c1 cl']|cl']; [|discriminate]. obinv H. destruct a as [[[c2 h2] cls2] q]. injection H as <- <- <- ->. destruct F1 as [I1 _].
      assert (Qc : Q cl').
      { apply (later_Q _ _ _ _ _ _ _ K I1) in E; [exact E|]. intros L1. destruct (c_obstacles cl) as [|o [|o' l]] eqn:Eo; try discriminate.
        apply (Sg o); [apply I1; left; reflexivity|]. unfold named in N1. rewrite Eo in N1. cbn [map] in N1. rewrite <- N1. exact L. }
      destruct (IH _ _ _ _ _ _ E0 N2 (singles_cons _ _ Sg) F2 (Forall_cons _ Qc Fh)) as (A & B & C). auto.
  Qed.
  Lemma rounds_Q k : all_ok k -> forall f n counter h its cls ex c' n' its' out, loop_inv M Sh h cls ex -> singles h -> Forall Q h -> Forall Q cls ->
    rounds M Sh setl op x xg obs k f n counter h its cls ex = Val (Finished c' n' its' out) -> Forall Q out.
  Proof.
    intros K. induction f as [|f IH]; intros n counter h its cls ex c' n' its' out I Sg Fh Fc H; cbn [rounds] in H; (destruct ex; [|injection H as <- <- <- <-; exact Fc]); [discriminate|].
    destruct (op_late op (AtRound n)); [discriminate|]. obinv H. destruct a as [[[c1 h1] cls1] q]. destruct q; [discriminate|]. obinv H. destruct a as [out1 b].
    destruct I as (D & N & L0). destruct (round_inv M Sh setl setl_ok _ _ _ _ _ _ _ _ _ _ _ _ _ _ E N D E0) as (I' & D1 & _ & _).
    destruct (round_Q _ _ K _ _ _ _ _ _ _ E N Sg Fc Fh) as (Fc1 & Fh1 & Sg1). pose proof (Q_gic cls1 out1 b (done_has M Sh _ D1) E0 Fc1) as Fo.
    destruct (match op_max_iterations op with Some m0 => (m0 <=? S n)%nat | None => false end); [injection H as <- <- <- <-; exact Fo|].
    apply (IH _ _ _ _ _ _ _ _ _ _ I' Sg1 Fh1 Fo H).
  Qed.
  Lemma firsts_Q k : all_ok k -> forall l counter i r, incl l obs -> first_clusters M Sh op x xg k counter i l = Val r -> Forall Q (snd r).
  Proof.
    intros K. induction l as [|o l IH]; intros counter i r I H; cbn in H; [injection H as <-; constructor|]. obinv H. destruct a as [c1 cl]. obinv H. destruct a as [c2 cls]. injection H as <-. cbn [snd].
    constructor; [|apply (IH _ _ _ (fun z Hz => I z (or_intror Hz)) E0)]. clear E0 IH. assert (Io : In o obs) by (apply I; left; reflexivity). destruct (K o Io) as (K1 & K2 & _).
    unfold first_cluster in E. cbv zeta in E. rewrite K1, K2 in E. obinvs E.
    assert (X : kernel_meant [o] (sh_intersection Sh a1 a2)).
    { exists a1, a2. split; [eapply single_seen; eassumption|]. split; [eapply single_seen; eassumption|]. cbn [List.length Nat.ltb Nat.leb]. rewrite andb_false_r. reflexivity. }
    assert (Ii : incl [o] obs) by (intros z [<-|[]]; exact Io).
    destruct a5 as [h|].
    - destruct (set_id counter a4) as [cc oid]. injection E as <- <-. split; cbn [c_obstacles c_admissible_kernel]; [exact Ii|]. intros adm Ea. injection Ea as <-. exact X.
    - destruct (is_star_class _); [|discriminate]. injection E as <- <-. split; cbn [c_obstacles c_admissible_kernel]; [exact Ii|]. intros adm Ea. injection Ea as <-. exact X.
  Qed.
  Lemma convexify_Q : forall todo counter before r, convexify M Sh op x xg counter before todo = Val r -> Forall Q before -> Forall Q todo -> Forall Q (snd r).
  Proof.
    induction todo as [|cl todo IH]; intros counter before r H Fb Ft; cbn [convexify] in H; [injection H as <-; exact Fb|]. inversion Ft as [|? ? F1 F2]; subst.
    destruct (c_obstacle cl) as [ob|] eqn:Eo; [|discriminate]. destruct (obst_is_convex M Sh op ob).
    { apply (IH _ _ _ H); [apply Forall_app; auto|exact F2]. }
    destruct (op_late op _). { injection H as <-. cbn [snd]. apply Forall_app. auto. }
    pose proof (Q_read cl F1) as Fr. destruct (read_polygon M Sh cl) as [cl1 [g|]]; [|discriminate]. cbn [fst] in Fr. obinv H. destruct (_ && _).
    - obinv H. destruct (set_id counter IdNew) as [cc oid]. apply (IH _ _ _ H); [|exact F2]. apply Forall_app. split; [exact Fb|]. constructor; [|constructor]. exact Fr.
    - apply (IH _ _ _ H); [|exact F2]. apply Forall_app. auto.
  Qed.
End Exclude.

Section Theorem_.
  Context {Obs G : Type} (M : methods Obs G) (Sh : shapely G) (setl : list nat -> list nat).
  Hypothesis setl_ok : set_order setl.
  (** the kernel stored in every cluster of a call that does not give up *)
  Theorem C127_kernel : forall (den : G -> RPt -> Prop) op fuel counter x xg obs a c adm,
    (forall g h p, den (sh_intersection Sh g h) p <-> den g p /\ den h p) -> NoDup (map (ob_id M) obs) ->
    cluster_and_starify M Sh setl op fuel counter x xg obs = Val a -> In c (a_clusters a) -> c_admissible_kernel c = Some adm ->
    kernel_meant M Sh den op x xg obs (c_obstacles c) adm.
  Proof.
    intros den op fuel counter x xg obs a c adm Hd N H Hc Ha. enough (F : Forall (Q M Sh den op x xg obs) (a_clusters a)) by (rewrite Forall_forall in F; destruct (F c Hc) as [_ F']; auto).
    clear c adm Hc Ha. unfold cluster_and_starify in H. cbv zeta in H.
    assert (Df : forall n its c2, Forall (Q M Sh den op x xg obs) (a_clusters (default_result M op obs n its c2))).
    { intros. cbn. apply Forall_forall. intros c Hc. apply in_map_iff in Hc as (o & <- & Ho). split; [intros z [<-|[]]; exact Ho|discriminate]. }
    obinv H. destruct a0 as [k|]; [|injection H as <-; apply Df]. destruct (prepare_spec M Sh op x xg obs N _ _ _ _ E N) as [K _].
    obinv H. destruct a0 as [c1 cls]. obinv H. destruct a0 as [out b]. obinv H.
    pose proof (firsts_Q M Sh den op x xg obs k K _ _ _ _ (fun z Hz => Hz) E0) as F. cbn [snd] in F.
    pose proof (first_clusters_spec M Sh op x xg k obs _ _ _ E0) as [Fo Fd]. cbn [snd] in *.
    assert (Li : loop_inv M Sh (rev cls) out b). { apply (first_inv M Sh setl setl_ok _ _ _ _ _ _ _ _ _ _ E0 E1). }
    assert (Fr : Forall (Q M Sh den op x xg obs) (rev cls)) by (apply Forall_rev; exact F).
    pose proof (Q_gic M Sh setl setl_ok den op x xg obs cls out b (done_has M Sh _ Fd) E1 F) as Fg.
    assert (Sg : singles M obs (rev cls)).
    { intros o Ho. unfold history_lookup. destruct (find _ (rev cls)) eqn:Fn; [discriminate|]. exfalso.
      assert (Hi : In [o] (map c_obstacles cls)) by (rewrite Fo; apply (in_map (fun o => [o])); exact Ho). apply in_map_iff in Hi as (c & Ec & Hc).
      rewrite Forall_forall in Fd. pose proof (d_name _ _ _ (Fd c Hc)) as Dn. rewrite Ec in Dn. cbn [map] in Dn.
      pose proof (find_none _ _ Fn c (proj1 (in_rev _ _) Hc)) as X. cbn beta in X. rewrite Dn, String.eqb_refl in X. discriminate. }
    destruct a0 as [c2 n2 its2|c2 n2 its2 out2]; [injection H as <-; apply Df|].
    pose proof (rounds_Q M Sh setl setl_ok den Hd op x xg obs k K _ _ _ _ _ _ _ _ _ _ _ Li Sg Fr Fg E2) as Fz.
    destruct (op_make_convex op); [|injection H as <-; exact Fz]. obinv H. destruct a0 as [[c3 it] cls3].
    pose proof (convexify_Q M Sh den op x xg obs _ _ _ _ E3 (Forall_nil _) Fz) as Fx. cbn [snd] in Fx. destruct it; injection H as <-; exact Fx.
  Qed.
End Theorem_.
Print Assumptions C127_kernel.

(** *** a world with three obstacles: 0 and 1 meet, 2 stands apart; seen from the extreme point (2, 0) of 2 the kernels are smaller *)
Definition mem (q : list Z) (a : Z) : bool := existsb (Z.eqb a) q.
Definition cells (r : R) : list Z := if Reqb r 2 then [0; 1]%Z else [0; 1; 2; 3]%Z.
Definition three : methods Z (list Z) :=
  Methods Z (list Z) (@Some Z) (fun _ => CStarPolygon) (fun _ => true) (fun _ => true) (fun o => if Z.eqb o 2 then [20] else [10; 11 + o])%Z (fun _ => Ret [0; 1; 2; 3]%Z)
    (fun _ => toy_tangents) (fun _ _ => true) (fun e => [(IZR e, 0)%R]) (fun _ _ => Val []) (fun _ _ => Val []) (fun _ => (0, 1)%R).
Definition grid : shapely (list Z) :=
  Shapely (list Z) (fun g => if null g then 0%R else 1%R) null (fun p q => filter (mem q) p) (fun p _ => p) (@concat Z) (fun _ _ => true) share_cell
    (fun _ _ => false) (fun _ => (0, 0)%R) (fun _ _ => Ret (level 1)) (fun g _ _ => Ret [g]) (fun _ => None) (fun _ _ => Ret 1%R)
    (fun g => Ret g) (fun c => Ret (cells (fst (apex c)))).
Definition grid_den (g : list Z) (p : RPt) : Prop := In (up (fst p)) g.
Lemma grid_den_intersection g h p : grid_den (sh_intersection grid g h) p <-> grid_den g p /\ grid_den h p.
Proof.
  unfold grid_den. cbn. rewrite filter_In. unfold mem. rewrite existsb_exists. split; intros [A B]; (split; [exact A|]).
  - destruct B as (z & Hz & E). apply Z.eqb_eq in E as ->. exact Hz.
  - exists (up (fst p)). split; [exact B|apply Z.eqb_refl].
Qed.
Lemma cells_2 : cells (IZR 2) = [0; 1]%Z. Proof. unfold cells. destruct (Reqb_spec (IZR 2) 2); [reflexivity|contradiction]. Qed.
Lemma cells_not r : r <> 2%R -> cells r = [0; 1; 2; 3]%Z. Proof. intros N. unfold cells. destruct (Reqb_spec r 2); [contradiction|reflexivity]. Qed.
Lemma three_excluding o e : excluding three grid o e = Val (Some (cells (IZR e))).
Proof. reflexivity. Qed.
Definition three_cones : cones (list Z) :=
  Cones [(Some 2, Kc Ox); (Some 1, Kc Ox); (Some 0, Kc Ox)]%Z [(Some 2, Kc Og); (Some 1, Kc Og); (Some 0, Kc Og)]%Z
    (map (fun e => (Some (fst e), Some (snd e), Some (cells (IZR (snd e))))) [(2, 1); (2, 0); (1, 2); (1, 0); (0, 2); (0, 1)]%Z).
Definition sparing (ex : bool) : options Z (list Z) := toy_options None never false ex None false.
Lemma three_prepare : prepare three grid (sparing true) Ox Og [0; 1; 2]%Z 0 [0; 1; 2]%Z (Cones [] [] []) = Val (Some three_cones).
Proof. reflexivity. Qed.
Lemma grid_ckp g obs ws draws : compute_kernel_points three grid g obs Ox Og (1 / 10)%R None ws draws (1, 1, 1, 1, 1)%R = Val (KP 1).
Proof.
  unfold compute_kernel_points. cbn [obind].
  assert (Sel : exists t, selection_set three grid g obs ws = Val t).
  { unfold selection_set. cbv zeta. assert (W : forall l t, exists t', with_kernels three grid t l = Val t') by (induction l as [|o l IH]; intros t; cbn; [eauto|apply IH]).
    destruct (W obs (selection_set_workspace three grid g obs ws)) as [t' ->]. destruct (forallb _ _); eexists; reflexivity. }
  destruct Sel as [t ->]. cbn [obind]. unfold triangle_center. cbn [sh_nearest grid of_res obind]. rewrite off_level by lia. cbn [obind].
  change (boundary_distance grid t (level 1)) with (Val 1%R). cbn [obind]. rewrite total_111. reflexivity.
Qed.
Lemma three_hull l k : kernel_starshaped_hull three grid l k = Val None.
Proof.
  unfold kernel_starshaped_hull. assert (E : omap (hull_of three k) l = Val (repeat [] (List.length l))) by (induction l as [|o l IH]; [reflexivity|]; cbn [omap]; rewrite IH; reflexivity).
  rewrite E. cbn [obind sh_union grid]. assert (N : concat (repeat (@nil Z) (List.length l)) = []) by (clear; generalize (List.length l); induction n as [|n IH]; [reflexivity|exact IH]). rewrite N. reflexivity.
Qed.
Definition alone (o : Z) : cluster Z (list Z) := Cluster (name_of [Some o]) [o] (Some (Original o (Some (level 1)))) (Some (KP 1)) (Some [0; 1; 2; 3]%Z) None.
Lemma three_first (ex : bool) i o : In o [0; 1; 2]%Z -> first_cluster three grid (sparing ex) Ox Og three_cones 5 i o = Val (5%Z, alone o).
Proof.
  intros Ho. unfold first_cluster. cbv zeta. assert (L : get_cone (k_robot three_cones) (ob_id three o) = Val (Kc Ox) /\ get_cone (k_goal three_cones) (ob_id three o) = Val (Kc Og)).
  { destruct Ho as [<-|[<-|[<-|[]]]]; split; reflexivity. }
  destruct L as [-> ->]. cbn [obind]. change (sh_cone grid (Kc Ox)) with (Ret (cells 0)). change (sh_cone grid (Kc Og)) with (Ret (cells 10)). rewrite !cells_not by lra. cbn [of_res obind].
  change (sh_intersection grid [0; 1; 2; 3]%Z [0; 1; 2; 3]%Z) with [0; 1; 2; 3]%Z. cbn [sparing toy_options op_previous extract_cluster op_epsilon op_timer].
  rewrite grid_ckp. cbn [obind id_argument]. rewrite three_hull. cbn [obind]. rewrite mean_KP. reflexivity.
Qed.
Definition pair01 (adm : list Z) : cluster Z (list Z) :=
  Cluster (name_of [Some 0; Some 1]%Z) [0; 1]%Z (Some (Combination [0; 1]%Z None (level 1) (Some 6%Z))) (Some (KP 1)) (Some adm) (Some [10; 11; 10; 12]%Z).
Lemma three_cones_at d y : (forall o, In o [0; 1]%Z -> get_cone d (Some o) = Val (Kc y)) -> fst y <> 2%R ->
  forall op, cones_polygon three grid op d [0; 1]%Z = Val [0; 1; 2; 3; 0; 1; 2; 3]%Z.
Proof.
  intros H N op. unfold cones_polygon. cbn [omap ob_id three]. rewrite !H by (cbn; auto). cbn [obind list_intersection list_intersection_loop flat_map]. rewrite Kc_self. cbn [app union_of_cones omap].
  change (sh_cone grid (Kc y)) with (Ret (cells (fst y))). rewrite cells_not by exact N. reflexivity.
Qed.
Lemma three_later (ex : bool) n i b c d e : let adm := if ex then [0; 1; 0; 1]%Z else [0; 1; 2; 3; 0; 1; 2; 3]%Z in
  later_cluster three grid (sparing ex) Ox Og [0; 1; 2]%Z three_cones n i 5 (Cluster (name_of [Some 0; Some 1]%Z) [0; 1]%Z b c d e) = Val (inl (6%Z, pair01 adm)).
Proof.
  cbv zeta. unfold later_cluster. cbn [c_obstacles c_name].
  rewrite (three_cones_at _ Ox) by (cbn; first [lra | intros o [<-|[<-|[]]]; reflexivity]). rewrite (three_cones_at _ Og) by (cbn; first [lra | intros o [<-|[<-|[]]]; reflexivity]). cbn [obind]. cbv zeta.
  change (sh_intersection grid [0; 1; 2; 3; 0; 1; 2; 3]%Z [0; 1; 2; 3; 0; 1; 2; 3]%Z) with [0; 1; 2; 3; 0; 1; 2; 3]%Z.
  assert (V : forall z l, vanishing grid (z :: l) = false) by (intros; unfold vanishing; cbn; apply one_small). rewrite V.
  assert (Ex : exclude_from three grid (k_others three_cones) [0; 1; 2]%Z [0; 1]%Z [0; 1; 2; 3; 0; 1; 2; 3]%Z = [0; 1; 0; 1]%Z).
  { unfold three_cones. cbn [k_others map fst snd]. rewrite cells_2, (cells_not (IZR 0)), (cells_not (IZR 1)) by lra. reflexivity. }
  rewrite Ex, V. cbn [negb]. rewrite andb_true_r. cbn [sparing toy_options op_exclude_obstacles op_previous extract_last op_epsilon op_timer]. rewrite grid_ckp. cbn [obind id_argument]. rewrite three_hull.
  cbn [obind set_id]. rewrite mean_KP. unfold pair01. destruct ex; reflexivity.
Qed.
Lemma three_call : exists a, cluster_and_starify three grid dedup (sparing true) 3 5 Ox Og [0; 1; 2]%Z = Val a /\ a_flag a = COMPLETE /\
  a_clusters a = [pair01 [0; 1; 0; 1]%Z; fst (read_polygon three grid (alone 2))].
Proof.
  unfold cluster_and_starify. cbn [op_workspace sparing toy_options]. fold (sparing true). rewrite three_prepare. cbn [obind first_clusters].
  do 3 (rewrite three_first by (cbn; auto); cbn [obind]). cbv zeta.
  match goal with |- context [get_intersection_clusters three grid dedup ?l] => assert (Gc : get_intersection_clusters three grid dedup l =
    Val ([new_cluster three [0; 1]%Z; new_cluster three [2]%Z], true)) end.
  { unfold alone. generalize KP, level. intros kp lv. vm_compute. reflexivity. }
  rewrite Gc. cbn [obind rounds sparing toy_options op_late never]. fold (sparing true). cbn [starify_round].
  match goal with |- context [history_lookup (c_name (new_cluster three [0; 1]%Z)) ?h] => assert (Hl : history_lookup (c_name (new_cluster three [0; 1]%Z)) h = None) end.
  { unfold alone. generalize KP, level. intros kp lv. vm_compute. reflexivity. }
  rewrite Hl. unfold new_cluster at 1. cbn [map ob_id three]. fold three. rewrite three_later. cbn [obind].
  match goal with |- context [history_lookup (c_name (new_cluster three [2]%Z)) ?h] => assert (H2 : history_lookup (c_name (new_cluster three [2]%Z)) h = Some (alone 2)) end.
  { unfold alone, pair01. generalize KP, level. intros kp lv. vm_compute. reflexivity. }
  rewrite H2. cbn [obind].
  match goal with |- context [get_intersection_clusters three grid dedup ?l] => assert (Gd : get_intersection_clusters three grid dedup l =
    Val ([pair01 [0; 1; 0; 1]%Z; fst (read_polygon three grid (alone 2))], false)) end.
  { unfold alone, pair01. generalize KP, level. intros kp lv. vm_compute. reflexivity. }
  rewrite Gd. cbn [obind op_max_iterations sparing toy_options rounds]. eexists. split; [reflexivity|]. split; reflexivity.
Qed.
(* with exclude_obstacles the pair keeps the cells 0 and 1 only *)
Example C127_example : exists a c adm, set_order dedup /\ (forall g h p, grid_den (sh_intersection grid g h) p <-> grid_den g p /\ grid_den h p) /\
  NoDup (map (ob_id three) [0; 1; 2]%Z) /\ cluster_and_starify three grid dedup (sparing true) 3 5 Ox Og [0; 1; 2]%Z = Val a /\ In c (a_clusters a) /\
  c_admissible_kernel c = Some adm /\ c_obstacles c = [0; 1]%Z /\ adm = [0; 1; 0; 1]%Z /\ vanishing grid adm = false.
Proof.
  destruct three_call as (a & H & _ & C). exists a, (pair01 [0; 1; 0; 1]%Z), [0; 1; 0; 1]%Z. split; [exact dedup_ok|]. split; [exact grid_den_intersection|].
  split; [cbn; repeat constructor; cbn; intuition discriminate|]. split; [exact H|]. split; [rewrite C; left; reflexivity|]. do 3 (split; [reflexivity|]). unfold vanishing. cbn. apply one_small.
Qed.

(** with exclude_obstacles the kernel of an obstacle that is a cluster by itself is not restricted: here it has a point that does not spare the other
    obstacle although enough of it does *)
Theorem C127_single_refuted : exists (M : methods Z (list Z)) Sh setl (den : list Z -> RPt -> Prop) op fuel counter x xg obs a c adm p ex,
  set_order setl /\ (forall g h q, den (sh_intersection Sh g h) q <-> den g q /\ den h q) /\ NoDup (map (ob_id M) obs) /\ op_exclude_obstacles op = true /\
  cluster_and_starify M Sh setl op fuel counter x xg obs = Val a /\ a_flag a = COMPLETE /\ In c (a_clusters a) /\ c_admissible_kernel c = Some adm /\
  den adm p /\ ~ spares M Sh den obs (c_obstacles c) p /\
  (forall q, den ex q <-> den adm q /\ spares M Sh den obs (c_obstacles c) q) /\ vanishing Sh ex = false.
Proof.
  set (obs := [0; 2]%Z).
  set (k := Cones [(Some 2, Kc Ox); (Some 0, Kc Ox)]%Z [(Some 2, Kc Og); (Some 0, Kc Og)]%Z
    (map (fun e => (Some (fst e), Some (snd e), Some (cells (IZR (snd e))))) [(2, 0); (0, 2)]%Z)).
  assert (Pr : prepare three grid (sparing true) Ox Og obs 0 obs (Cones [] [] []) = Val (Some k)) by reflexivity.
  assert (First : forall i o, In o obs -> first_cluster three grid (sparing true) Ox Og k 5 i o = Val (5%Z, alone o)).
  { intros i o Ho. rewrite <- (three_first true i o) by (destruct Ho as [<-|[<-|[]]]; cbn; auto). destruct Ho as [<-|[<-|[]]]; reflexivity. }
  assert (Call : exists a, cluster_and_starify three grid dedup (sparing true) 3 5 Ox Og obs = Val a /\ a_flag a = COMPLETE /\
    a_clusters a = [fst (read_polygon three grid (alone 0)); fst (read_polygon three grid (alone 2))]).
  { unfold cluster_and_starify. cbn [op_workspace sparing toy_options]. fold (sparing true). rewrite Pr. unfold obs at 1. cbn [obind first_clusters].
    do 2 (rewrite First by (cbn; auto); cbn [obind]). cbv zeta.
    match goal with |- context [get_intersection_clusters three grid dedup ?l] => assert (Gc : get_intersection_clusters three grid dedup l =
      Val ([fst (read_polygon three grid (alone 0)); fst (read_polygon three grid (alone 2))], false)) end.
    { unfold alone. generalize KP, level. intros kp lv. vm_compute. reflexivity. }
    rewrite Gc. cbn [obind rounds]. eexists. split; [reflexivity|]. split; reflexivity. }
  destruct Call as (a & H & Fl & C).
  assert (Sp : forall q, spares three grid grid_den obs [0%Z] q <-> grid_den [0; 1]%Z q).
  { intros q. split.
    - intros S1. rewrite <- cells_2. apply (S1 0%Z 2%Z (IZR 2, 0)%R (cells (IZR 2))); cbn; auto. discriminate.
    - intros D o e v g [<-|[]] He Ne _ Hv Hg. destruct He as [<-|[<-|[]]]; [exfalso; apply Ne; reflexivity|]. destruct Hv as [<-|[]].
      change (kernel_polygon three grid 0%Z (IZR 2, 0)%R) with (Val (cells (IZR 2))) in Hg. injection Hg as <-. rewrite cells_2. exact D. }
  assert (U : up (3 / 2)%R = 2%Z) by (symmetry; apply tech_up; lra).
  exists three, grid, dedup, grid_den, (sparing true), 3%nat, 5%Z, Ox, Og, obs, a, (fst (read_polygon three grid (alone 0))), [0; 1; 2; 3]%Z, (3 / 2, 0)%R, [0; 1]%Z.
  split; [exact dedup_ok|]. split; [exact grid_den_intersection|]. split; [cbn; repeat constructor; cbn; intuition discriminate|]. split; [reflexivity|].
  split; [exact H|]. split; [exact Fl|]. split; [rewrite C; left; reflexivity|]. split; [reflexivity|].
  change (c_obstacles (fst (read_polygon three grid (alone 0)))) with [0%Z].
  split; [unfold grid_den; cbn [fst]; rewrite U; cbn; auto|]. split; [rewrite Sp; unfold grid_den; cbn [fst]; rewrite U; cbn; intuition discriminate|].
  split; [intros q; rewrite Sp; unfold grid_den; cbn; intuition|]. unfold vanishing. cbn. apply one_small.
Qed.
Print Assumptions C127_single_refuted.
