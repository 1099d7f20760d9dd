(** What cluster_and_starify returns. *)
From Coq Require Import String Reals List Bool Arith ZArith Lia Lra Permutation.
From Verif Require Import Num Spec M_Cg M_Motion M_Obstacle M_Clusters L_Clusters P_Clusters M_StarHull M_Starify L_Cg L_Starify P_Starify L_HullDisjoint.
Import ListNotations.

Lemma nth_ext_error {A} : forall l l' : list A, (forall i, nth_error l i = nth_error l' i) -> l = l'.
Proof.
  induction l as [|a l IH]; intros [|b l'] H; [reflexivity|specialize (H 0%nat); discriminate|specialize (H 0%nat); discriminate|].
  f_equal; [specialize (H 0%nat); cbn in H; congruence|]. apply IH. intros i. apply (H (S i)).
Qed.
Section Result.
  Context {Obs G : Type} (M : methods Obs G) (Sh : shapely G) (setl : list nat -> list nat).
  Notation cluster := (cluster Obs G).
  Notation call := (cluster_and_starify M Sh setl).

  (** the two ways to return *)
  Lemma call_inv op fuel counter x xg obs a : call op fuel counter x xg obs = Val a ->
    (a_flag a = INCOMPLETE /\ exists n its c, a = default_result M op obs n its c) \/
    exists k c0 c1 cls out b c2 its its' cls2,
      prepare M Sh op x xg obs 0 obs (Cones [] [] []) = Val (Some k) /\
      first_clusters M Sh op x xg k c0 0 obs = Val (c1, cls) /\ get_intersection_clusters M Sh setl cls = Val (out, b) /\
      rounds M Sh setl op x xg obs k fuel 1 c1 (rev cls) its out b = Val (Finished c2 (a_iter a) its' cls2) /\
      ((op_make_convex op = false /\ a_clusters a = cls2 /\ a_flag a = COMPLETE /\
        a_history a = if op_return_history op then Some (Rounds its') else None) \/
       (op_make_convex op = true /\ exists c3 t, convexify M Sh op x xg c2 [] cls2 = Val (c3, t, a_clusters a) /\
        a_flag a = (if t then COMPLETE else MAX_COMPUTE_TIME_CONVEX_HULL) /\
        a_history a = if t && op_return_history op then Some (Rounds its') else None)).
  Proof.
    unfold cluster_and_starify. intros H. obinv H. destruct a0 as [k|]; [|injection H as <-; left; split; [reflexivity|eauto]].
    obinv H. destruct a0 as [c1 cls]. cbv zeta in H. obinv H. destruct a0 as [out b]. obinv H. destruct a0 as [c2 n its'|c2 n its' cls2].
    - injection H as <-. left. split; [reflexivity|eauto].
    - right. exists k. do 9 eexists. split; [exact E|]. split; [exact E0|]. split; [exact E1|]. destruct (op_make_convex op).
      + obinv H. destruct a0 as [[c3 t] cls3]. destruct t; injection H as <-; (split; [exact E2|]); right; (split; [reflexivity|]); do 2 eexists; split; [exact E3|auto|exact E3|auto].
      + injection H as <-. split; [exact E2|]. left. auto.
  Qed.

  Hypothesis setl_ok : set_order setl.
  Hypothesis symmetric : forall p q, sh_intersects Sh p q = sh_intersects Sh q p.

  (** not stopped by max_iterations *)
  Definition uncut (op : options Obs G) (a : answer Obs G) : Prop := forall m, op_max_iterations op = Some m -> a_iter a = 1%nat \/ (a_iter a < m)%nat.

  Lemma finished_done op x xg k obs fuel c0 c1 cls out b its c2 n its' cls2 :
    first_clusters M Sh op x xg k c0 0 obs = Val (c1, cls) -> get_intersection_clusters M Sh setl cls = Val (out, b) ->
    rounds M Sh setl op x xg obs k fuel 1 c1 (rev cls) its out b = Val (Finished c2 n its' cls2) ->
    (forall m, op_max_iterations op = Some m -> n = 1%nat \/ (n < m)%nat) ->
    Forall (done M Sh) cls2 /\ disjoint_list M Sh cls2.
  Proof.
    intros F Gc R Mx. destruct (first_inv M Sh setl setl_ok _ _ _ _ _ _ _ _ _ _ F Gc) as (D & _ & I & _).
    apply (rounds_disjoint M Sh setl setl_ok symmetric op x xg obs k fuel 1 c1 (rev cls) its out b c2 n its' cls2 I); [|exact R|exact Mx].
    intros ->. apply (gic_disjoint M Sh setl symmetric cls out D Gc).
  Qed.

  Theorem C67_complete_partial : forall op fuel counter x xg obs a, call op fuel counter x xg obs = Val a ->
    a_flag a = COMPLETE -> op_make_convex op = false -> uncut op a ->
    (forall c, In c (a_clusters a) -> exists ob, c_obstacle c = Some ob) /\
    (forall i j ci cj oi oj, i <> j -> nth_error (a_clusters a) i = Some ci -> nth_error (a_clusters a) j = Some cj ->
       c_obstacle ci = Some oi -> c_obstacle cj = Some oj ->
       sh_intersects Sh (obst_polygon M Sh oi) (obst_polygon M Sh oj) = false).
  Proof.
    intros op fuel counter x xg obs a H Fl Mc Un. apply call_inv in H as [[E _]|H]; [congruence|].
    destruct H as (k & c0 & c1 & cls & out & b & c2 & its & its' & cls2 & _ & F & Gc & R & [(_ & Ec & _ & _)|(E & _)]); [|congruence].
    destruct (finished_done _ _ _ _ _ _ _ _ _ _ _ _ _ _ _ _ F Gc R Un) as [D Dj]. rewrite Ec. rewrite Forall_forall in D. split.
    - intros c Hc. destruct (done_polygon M Sh c (D c Hc)) as (ob & E & _). eauto.
    - intros i j ci cj oi oj N Ei Ej Oi Oj. destruct (done_polygon M Sh ci (D ci (nth_error_In _ _ Ei))) as (o1 & E1 & P1).
      destruct (done_polygon M Sh cj (D cj (nth_error_In _ _ Ej))) as (o2 & E2 & P2).
      rewrite E1 in Oi. injection Oi as <-. rewrite E2 in Oj. injection Oj as <-. apply (Dj i j ci cj _ _ N Ei Ej P1 P2).
  Qed.

  (** C68 *)
  Theorem C68_incomplete_returns_obstacles : forall op fuel counter x xg obs a, call op fuel counter x xg obs = Val a ->
    a_flag a = INCOMPLETE ->
    map c_obstacles (a_clusters a) = map (fun o => [o]) obs /\
    map c_obstacle (a_clusters a) = map (fun o => Some (Original o None)) obs /\
    forall c, In c (a_clusters a) -> c_kernel_points c = None /\ c_admissible_kernel c = None.
  Proof.
    intros op fuel counter x xg obs a H Fl. apply call_inv in H as [(_ & n & its & c & ->)|H].
    - cbn [a_clusters default_result]. rewrite !map_map. split; [reflexivity|]. split; [reflexivity|]. intros c' Hc. apply in_map_iff in Hc as (o & <- & _). split; reflexivity.
    - destruct H as (k & c0 & c1 & cls & out & b & c2 & its & its' & cls2 & _ & F & Gc & R & [(_ & _ & E & _)|(_ & c3 & t & _ & E & _)]); [congruence|]. destruct t; congruence.
  Qed.
  Lemma prepare_gives_up op x xg all : forall obs i k o, In o obs -> (ob_tangent_points M o x = Ret [] \/ ob_tangent_points M o xg = Ret []) ->
    forall r, prepare M Sh op x xg all i obs k = Val r -> r = None.
  Proof.
    induction obs as [|o' obs IH]; intros i k o Ho T r H; [destruct Ho|]. cbn [prepare] in H. destruct (op_late op _); [congruence|].
    obinv H. apply of_res_val in E. obinv H. apply of_res_val in E0. destruct Ho as [->|Ho].
    - assert (a = None \/ a0 = None) as [->| ->].
      { destruct T as [T|T]; [left|right]; [unfold admissible_kernel in E; rewrite T in E; injection E as <-|unfold admissible_kernel in E0; rewrite T in E0; injection E0 as <-]; reflexivity. }
      + congruence.
      + destruct a; congruence.
    - destruct a, a0; try congruence. obinv H. apply (IH _ _ o Ho T r H).
  Qed.
  Lemma prepare_total op x xg all : op_exclude_obstacles op = false -> forall obs i k,
    (forall o p, In o obs -> exists l, ob_tangent_points M o p = Ret l /\ length l <> 1%nat) -> exists r, prepare M Sh op x xg all i obs k = Val r.
  Proof.
    intros Ex. induction obs as [|o obs IH]; intros i k H; cbn [prepare]; [eauto|]. destruct (op_late op _); [eauto|].
    assert (T : forall p, exists r, of_res (admissible_kernel (ob_tangent_points M o) p) = Val r).
    { intros p. destruct (H o p (or_introl eq_refl)) as (l & E & L). unfold admissible_kernel. rewrite E. destruct l as [|a [|b l]]; cbn in *; eauto. congruence. }
    destruct (T x) as [kx ->]. destruct (T xg) as [kg ->]. cbn [obind]. destruct kx, kg; eauto. rewrite Ex. cbn [obind]. apply IH. intros o' p Ho. apply H. right. exact Ho.
  Qed.
  Theorem C68_no_tangents_gives_up : forall op fuel counter x xg obs o, In o obs ->
    ob_tangent_points M o x = Ret [] \/ ob_tangent_points M o xg = Ret [] ->
    (forall a, call op fuel counter x xg obs = Val a -> a_flag a = INCOMPLETE /\ a_iter a = 0%nat) /\
    (op_exclude_obstacles op = false -> (forall o p, In o obs -> exists l, ob_tangent_points M o p = Ret l /\ length l <> 1%nat) ->
     exists a, call op fuel counter x xg obs = Val a).
  Proof.
    intros op fuel counter x xg obs o Ho T. split.
    - intros a H. unfold cluster_and_starify in H. obinv H. apply (prepare_gives_up _ _ _ _ _ _ _ o Ho T) in E as ->. injection H as <-. split; reflexivity.
    - intros Ex Tp. destruct (prepare_total op x xg obs Ex obs 0%nat (Cones [] [] []) Tp) as [r E]. pose proof (prepare_gives_up _ _ _ _ _ _ _ o Ho T _ E) as ->.
      unfold cluster_and_starify. rewrite E. cbn [obind]. eauto.
  Qed.

  (** C69 *)
  Definition owned (obs : list Obs) (c : cluster) : Prop := named M c /\ incl (c_obstacles c) obs.
  Lemma ids_inj (obs l1 l2 : list Obs) : NoDup (map (ob_id M) obs) -> incl l1 obs -> incl l2 obs -> map (ob_id M) l1 = map (ob_id M) l2 -> l1 = l2.
  Proof.
    intros N. revert l2. induction l1 as [|a l1 IH]; intros [|b l2] I1 I2 E; cbn in E; try discriminate; [reflexivity|]. injection E as E1 E2. f_equal.
    - assert (A : In a obs) by (apply I1; left; reflexivity). assert (B : In b obs) by (apply I2; left; reflexivity). clear - N A B E1.
      induction obs as [|o obs IH]; [destruct A|]. cbn in N. inversion N as [|? ? Q1 Q2]; subst. destruct A as [->|A], B as [->|B]; auto.
      + exfalso. apply Q1. rewrite E1. apply in_map, B.
      + exfalso. apply Q1. rewrite <- E1. apply in_map, A.
    - apply IH; auto; intros z Hz; [apply I1|apply I2]; right; exact Hz.
  Qed.
  Lemma round_obstacles obs op x xg all k n : NoDup (map (ob_id M) obs) -> forall todo i counter h c' h' cls,
    starify_round M Sh op x xg all k n i counter h todo = Val (c', h', cls, false) -> Forall (owned obs) todo -> Forall (owned obs) h ->
    map c_obstacles cls = map c_obstacles todo /\ Forall (owned obs) h'.
  Proof.
    intros Nd. induction todo as [|cl todo IH]; intros i counter h c' h' cls H Nm D; cbn in H; [injection H as <- <- <-; auto|].
    inversion Nm as [|? ? N1 N2]; subst. destruct (history_lookup (c_name cl) h) as [old|] eqn:L.
    - obinv H. destruct a as [[[c1 h1] cls1] q]. injection H as <- <- <- ->. destruct (IH _ _ _ _ _ _ E N2 D) as (A & B). split; [|exact B].
      apply history_some in L as [L1 L2]. rewrite Forall_forall in D. destruct (D old L1) as [D1 D2]. destruct N1 as [N11 N12]. cbn. rewrite A. f_equal.
      apply (ids_inj obs); auto. apply (name_inj). rewrite <- D1, <- N11. exact L2.
    - obinv H. destruct a as [[c1 cl']|cl']; [|discriminate]. obinv H. destruct a as [[[c2 h2] cls2] q]. injection H as <- <- <- ->.
      destruct N1 as [N11 N12]. apply later_cluster_spec in E as (A & B & C); [|exact N11]. cbn [snd] in *.
      destruct (IH _ _ _ _ _ _ E0 N2) as (A' & B'). { constructor; [|exact D]. split; [apply C|rewrite A; exact N12]. }
      split; [cbn; congruence|exact B'].
  Qed.
  Lemma perm_incl {A} (l l' : list A) : Permutation l l' -> incl l l'.
  Proof. intros P a Ha. apply (Permutation_in a P Ha). Qed.
  Lemma flat_obstacles (cls todo : list cluster) : map c_obstacles cls = map c_obstacles todo -> flat_map c_obstacles cls = flat_map c_obstacles todo.
  Proof. rewrite !flat_map_concat_map. intros ->. reflexivity. Qed.
  Lemma owned_flat obs (cls : list cluster) : Forall (named M) cls -> incl (flat_map c_obstacles cls) obs -> Forall (owned obs) cls.
  Proof.
    intros N I. apply Forall_forall. intros c Hc. rewrite Forall_forall in N. split; [apply N, Hc|]. intros o Ho. apply I. apply in_flat_map. eauto.
  Qed.
  Lemma rounds_obstacles obs op x xg all k : NoDup (map (ob_id M) obs) -> forall f n counter h its cls ex c' n' its' out,
    loop_inv M Sh h cls ex -> Forall (owned obs) h -> Permutation (flat_map c_obstacles cls) obs ->
    rounds M Sh setl op x xg all k f n counter h its cls ex = Val (Finished c' n' its' out) -> Permutation (flat_map c_obstacles out) obs.
  Proof.
    intros Nd. induction f as [|f IH]; intros n counter h its cls ex c' n' its' out I Oh P H; cbn [rounds] in H; (destruct ex; [|injection H as <- <- <- <-; exact P]); [discriminate|].
    destruct (op_late op (AtRound n)); [discriminate|]. obinv H. destruct a as [[[c1 h1] cls1] q]. destruct q; [discriminate|]. obinv H. destruct a as [out1 b].
    destruct I as (D & N & L0). destruct (round_inv M Sh setl setl_ok _ _ _ _ _ _ _ _ _ _ _ _ _ _ E N D E0) as (I' & D1 & _ & _).
    destruct (round_obstacles obs op x xg all k n Nd cls 0%nat counter h c1 h1 cls1 E (owned_flat obs cls N (perm_incl _ _ P)) Oh) as [Q Oh'].
    destruct (C65_preserves_obstacles M Sh setl setl_ok cls1 out1 b (done_has M Sh _ D1) E0) as (P1 & _).
    assert (P2 : Permutation (flat_map c_obstacles out1) obs) by (rewrite P1, (flat_obstacles _ _ Q); exact P).
    destruct (match op_max_iterations op with Some m0 => (m0 <=? S n)%nat | None => false end); [injection H as <- <- <- <-; exact P2|].
    apply (IH _ _ _ _ _ _ _ _ _ _ I' Oh' P2 H).
  Qed.

  (** *** make_convex *)
  (** [c'] is [c] after the convex hull step; [others]: the other clusters *)
  Definition made_convex (x xg : RPt) (others : list cluster) (c c' : cluster) : Prop :=
    c_name c' = c_name c /\ c_obstacles c' = c_obstacles c /\ c_kernel_points c' = c_kernel_points c /\
    c_admissible_kernel c' = c_admissible_kernel c /\ polygon_of M Sh c' = polygon_of M Sh c /\
    (c_obstacle c' = c_obstacle c \/
     exists g h p i, c_obstacle c' = Some (HullPolygon h p i) /\ polygon_of M Sh c = Some g /\ sh_convex_hull Sh g = Ret h /\
       sh_contains Sh h x = false /\ sh_contains Sh h xg = false /\
       forall d q, In d others -> polygon_of M Sh d = Some q -> sh_intersects Sh h q = false).
  Lemma made_refl x xg others c : made_convex x xg others c c.
  Proof. unfold made_convex. auto 10. Qed.
  Lemma convexify_spec op x xg : forall todo counter before c b out, convexify M Sh op x xg counter before todo = Val (c, b, out) ->
    exists out2, out = before ++ out2 /\ List.length out2 = List.length todo /\
      forall j cl cl', nth_error todo j = Some cl -> nth_error out2 j = Some cl' -> made_convex x xg (before ++ firstn j out2 ++ skipn (S j) todo) cl cl'.
  Proof.
    induction todo as [|cl todo IH]; intros counter before c b out H; cbn [convexify] in H.
    - injection H as <- <- <-. exists []. rewrite app_nil_r. split; [reflexivity|]. split; [reflexivity|]. intros [|j]; discriminate.
    - destruct (c_obstacle cl) as [ob|] eqn:Ob; [|discriminate].
      assert (Keep : forall cl1 counter', made_convex x xg (before ++ todo) cl cl1 -> convexify M Sh op x xg counter' (before ++ [cl1]) todo = Val (c, b, out) ->
         exists out2, out = before ++ out2 /\ List.length out2 = List.length (cl :: todo) /\
         forall j a a', nth_error (cl :: todo) j = Some a -> nth_error out2 j = Some a' -> made_convex x xg (before ++ firstn j out2 ++ skipn (S j) (cl :: todo)) a a').
      { intros cl1 counter' K R. apply IH in R as (out2 & E & L & F). exists (cl1 :: out2). split; [rewrite E, <- app_assoc; reflexivity|]. split; [cbn; congruence|].
        intros [|j] a a' Ha Ha'; cbn [nth_error] in *.
        - injection Ha as <-. injection Ha' as <-. cbn [firstn skipn app]. exact K.
        - specialize (F j a a' Ha Ha'). cbn [firstn skipn app]. rewrite <- app_assoc in F. exact F. }
      destruct (obst_is_convex M Sh op ob); [apply (Keep cl counter); [apply made_refl|exact H]|].
      destruct (op_late op _).
      + injection H as <- <- <-. exists (cl :: todo). split; [reflexivity|]. split; [reflexivity|]. intros j a a' Ha Ha'. rewrite Ha in Ha'. injection Ha' as <-. apply made_refl.
      + destruct (read_polygon M Sh cl) as [cl1 [g|]] eqn:Rd; [|discriminate]. obinv H. apply of_res_val in E.
        pose proof (read_cache M Sh cl) as (Q1 & Q2 & Q3 & Q4 & Q5 & Q6). pose proof (polygon_of_read M Sh cl) as Q7. rewrite Rd in *. cbn [fst] in *.
        assert (Pg : polygon_of M Sh cl = Some g) by (unfold polygon_of; rewrite Rd; reflexivity). rewrite Pg in Q6.
        destruct (_ && _) eqn:Cond.
        * obinv H. destruct (set_id counter IdNew) as [counter' oid]. apply (Keep _ counter') in H; [exact H|].
          apply andb_true_iff in Cond as [C1 C2]. apply negb_true_iff in C1. apply negb_true_iff in C2.
          cbn in C1. apply orb_false_iff in C1 as [C11 C12]. rewrite orb_false_r in C12.
          unfold made_convex. cbn. split; [exact Q1|]. split; [exact Q2|]. split; [exact Q4|]. split; [exact Q5|]. split.
          -- unfold polygon_of at 1, read_polygon. cbn. rewrite Q6. cbn. symmetry. exact Pg.
          -- right. exists g, a, a0, oid. repeat split; auto. intros d q Hd Hq.
             destruct (sh_intersects Sh a q) eqn:I; [|reflexivity]. exfalso.
             assert (T : existsb (fun c0 => polygons_meet Sh (Some a) (polygon_of M Sh c0)) (before ++ todo) = true); [|congruence].
             apply existsb_exists. exists d. split; [exact Hd|]. rewrite Hq. exact I.
        * apply (Keep cl1 counter); [|exact H]. unfold made_convex. rewrite Q1, Q2, Q3, Q4, Q5, Q7. auto 10.
  Qed.
  (** at the top level: the others are the others as they were *)
  Lemma convexify_top op x xg cls counter c b out : convexify M Sh op x xg counter [] cls = Val (c, b, out) ->
    List.length out = List.length cls /\
    forall i ci ci', nth_error cls i = Some ci -> nth_error out i = Some ci' ->
      made_convex x xg (map snd (filter (fun e => negb (fst e =? i)) (combine (seq 0 (List.length cls)) cls))) ci ci'.
  Proof.
    intros H. apply convexify_spec in H as (out2 & E & L & F). cbn [app] in *. subst out2. split; [exact L|]. intros i ci ci' Hi Hi'.
    pose proof (F i ci ci' Hi Hi') as K. destruct K as (K1 & K2 & K3 & K4 & K5 & K6). unfold made_convex. repeat (split; [assumption|]).
    destruct K6 as [K6|(g & h & p & d & A1 & A2 & A3 & A4 & A5 & A6)]; [left; exact K6|]. right. exists g, h, p, d. repeat (split; [assumption|]).
    intros o q Ho Hq. apply in_map_iff in Ho as ([j o'] & Eo & Ho). cbn in Eo. subst o'. apply filter_In in Ho as [Ho Nj]. cbn in Nj. apply negb_true_iff, Nat.eqb_neq in Nj.
    assert (Hj : nth_error cls j = Some o).
    { clear - Ho. assert (Q : forall s, In (j, o) (combine (seq s (List.length cls)) cls) -> (s <= j)%nat /\ nth_error cls (j - s) = Some o).
      { clear Ho. induction cls as [|c cls IH]; intros s Ho; [destruct Ho|]. cbn in Ho. destruct Ho as [Ho|Ho].
        - injection Ho as -> ->. rewrite Nat.sub_diag. auto.
        - apply IH in Ho as [A B]. split; [lia|]. replace (j - s)%nat with (S (j - S s)) by lia. exact B. }
      apply Q in Ho as [_ Ho]. rewrite Nat.sub_0_r in Ho. exact Ho. }
    destruct (lt_dec j i) as [Lt|Ge].
    - (* already treated *)
      assert (Ex : exists o', nth_error out j = Some o') by (destruct (nth_error out j) eqn:X; [eauto|apply nth_error_None in X; assert (j < List.length cls)%nat by (apply nth_error_Some; congruence); lia]).
      destruct Ex as [o' Hj']. destruct (F j o o' Hj Hj') as (_ & _ & _ & _ & Pj & _). apply (A6 o' q); [|congruence]. apply in_app_iff. left.
      clear - Hj' Lt. revert i Lt Hj'. revert j. induction out as [|c out IH]; intros [|j] [|i] Lt Hj'; cbn in *; try lia; try discriminate; [left; congruence|right; apply (IH j i); [lia|exact Hj']].
    - apply (A6 o q); [|exact Hq]. apply in_app_iff. right.
      assert (Gt : (i < j)%nat) by lia. clear - Hj Gt. revert i j Gt Hj. induction cls as [|c cls IH]; intros i [|j] Gt Hj; cbn in *; try lia; try discriminate.
      destruct i; [apply nth_error_In with j; exact Hj|]. apply (IH i j); [lia|exact Hj].
  Qed.

  Theorem C69_no_obstacle_lost_partial : forall op fuel counter x xg obs a, call op fuel counter x xg obs = Val a ->
    NoDup (map (ob_id M) obs) -> Permutation (flat_map c_obstacles (a_clusters a)) obs.
  Proof.
    intros op fuel counter x xg obs a H Nd. apply call_inv in H as [(_ & n & its & c & ->)|H].
    { cbn [a_clusters default_result]. rewrite flat_map_concat_map, map_map. cbn. clear. induction obs as [|o obs IH]; [reflexivity|]. cbn. constructor. exact IH. }
    destruct H as (k & c0 & c1 & cls & out & b & c2 & its & its' & cls2 & _ & F & Gc & R & W).
    destruct (first_inv M Sh setl setl_ok _ _ _ _ _ _ _ _ _ _ F Gc) as (D & _ & I & _).
    assert (P0 : flat_map c_obstacles cls = obs).
    { apply first_clusters_spec in F as [A _]. cbn [snd] in A. rewrite flat_map_concat_map, A. clear. induction obs as [|o obs IH]; [reflexivity|]. cbn. f_equal. exact IH. }
    assert (Nm : Forall (named M) cls) by (eapply Forall_impl; [|exact D]; intros c Hc; apply Hc).
    assert (P1 : Permutation (flat_map c_obstacles out) obs).
    { destruct (C65_preserves_obstacles M Sh setl setl_ok cls out b (done_has M Sh _ D) Gc) as (P1 & _). rewrite P1, P0. reflexivity. }
    assert (P2 : Permutation (flat_map c_obstacles cls2) obs).
    { apply (rounds_obstacles obs op x xg obs k Nd fuel 1 c1 (rev cls) its out b c2 (a_iter a) its' cls2 I); [|exact P1|exact R].
      apply Forall_rev. apply owned_flat; [exact Nm|]. rewrite P0. intros z Hz. exact Hz. }
    destruct W as [(_ & -> & _)|(_ & c3 & t & E & _)]; [exact P2|].
    destruct (convexify_top _ _ _ _ _ _ _ _ E) as [L F2]. replace (flat_map c_obstacles (a_clusters a)) with (flat_map c_obstacles cls2); [exact P2|].
    apply flat_obstacles. apply nth_ext_error. intros i. rewrite !nth_error_map. destruct (nth_error cls2 i) as [ci|] eqn:Ei; destruct (nth_error (a_clusters a) i) as [ci'|] eqn:Ei'; cbn.
    - f_equal. symmetry. apply (F2 i ci ci' Ei Ei').
    - exfalso. apply nth_error_None in Ei'. assert (i < List.length cls2)%nat by (apply nth_error_Some; congruence). lia.
    - exfalso. apply nth_error_None in Ei. assert (i < List.length (a_clusters a))%nat by (apply nth_error_Some; congruence). lia.
    - reflexivity.
  Qed.

  (** C71: what a finished call returns can be used as previous_clusters: centres and ids can be read off every cluster *)
  Lemma call_done op fuel counter x xg obs a : call op fuel counter x xg obs = Val a -> a_flag a <> INCOMPLETE -> uncut op a ->
    forall i c', nth_error (a_clusters a) i = Some c' -> exists cls2 c, Forall (done M Sh) cls2 /\ disjoint_list M Sh cls2 /\ nth_error cls2 i = Some c /\
      List.length cls2 = List.length (a_clusters a) /\
      (forall j cj cj', nth_error cls2 j = Some cj -> nth_error (a_clusters a) j = Some cj' ->
         made_convex x xg (map snd (filter (fun e => negb (fst e =? j)) (combine (seq 0 (List.length cls2)) cls2))) cj cj') /\
      (op_make_convex op = false -> cls2 = a_clusters a).
  Proof.
    intros H Fl Un i c' Hc. apply call_inv in H as [[E _]|H]; [congruence|].
    destruct H as (k & c0 & c1 & cls & out & b & c2 & its & its' & cls2 & _ & F & Gc & R & W).
    destruct (finished_done _ _ _ _ _ _ _ _ _ _ _ _ _ _ _ _ F Gc R Un) as [D Dj].
    destruct W as [(Mc & Ec & _ & _)|(Mc & c3 & t & E & _ & _)].
    - exists cls2, c'. rewrite Ec in *. repeat (split; [assumption|]). split; [reflexivity|]. split; [|reflexivity].
      intros j cj cj' Hj Hj'. rewrite Hj in Hj'. injection Hj' as <-. apply made_refl.
    - destruct (convexify_top _ _ _ _ _ _ _ _ E) as [L F2].
      assert (Ex : exists c, nth_error cls2 i = Some c).
      { destruct (nth_error cls2 i) eqn:X; [eauto|]. apply nth_error_None in X. assert (i < List.length (a_clusters a))%nat by (apply nth_error_Some; congruence). lia. }
      destruct Ex as [c Hi]. exists cls2, c. repeat (split; [assumption|]). split; [symmetry; exact L|]. split; [exact F2|congruence].
  Qed.
  Theorem C71_feedback_partial : forall op fuel counter x xg obs a, call op fuel counter x xg obs = Val a ->
    a_flag a <> INCOMPLETE -> uncut op a ->
    (forall c, In c (a_clusters a) -> exists k ob, c_kernel_points c = Some k /\ c_obstacle c = Some ob) /\
    forall name e, id_argument M (extract_cluster name (Some (a_clusters a))) <> Raise e /\ id_argument M (extract_last name (Some (a_clusters a))) <> Raise e.
  Proof.
    intros op fuel counter x xg obs a H Fl Un.
    assert (All : forall c, In c (a_clusters a) -> exists k ob, c_kernel_points c = Some k /\ c_obstacle c = Some ob).
    { intros c' Hc. apply In_nth_error in Hc as [i Hi].
      destruct (call_done _ _ _ _ _ _ _ H Fl Un i c' Hi) as (cls2 & c & D & _ & Hi2 & _ & F2 & _).
      rewrite Forall_forall in D. destruct (D c (nth_error_In _ _ Hi2)) as [_ K (ob & Eo & _) _].
      destruct (F2 i c c' Hi2 Hi) as (_ & _ & Ek & _ & _ & Ob). rewrite Ek. destruct (c_kernel_points c) as [kp|]; [|congruence].
      destruct Ob as [->|(g & h & p & d & -> & _)]; eauto. }
    split; [exact All|]. intros name e. unfold extract_cluster, extract_last. split.
    - destruct (find _ _) as [c|] eqn:Fd; cbn; [|discriminate]. apply find_some in Fd as [Fd _]. destruct (All c Fd) as (? & ob & _ & ->). discriminate.
    - destruct (find _ (rev _)) as [c|] eqn:Fd; cbn; [|discriminate]. apply find_some in Fd as [Fd _]. apply in_rev in Fd. destruct (All c Fd) as (? & ob & _ & ->). discriminate.
  Qed.

  (** C72 *)
  Theorem C72_make_convex_checks : forall op fuel counter x xg obs a, call op fuel counter x xg obs = Val a ->
    a_flag a <> INCOMPLETE -> uncut op a ->
    forall i c, nth_error (a_clusters a) i = Some c ->
      exists g ob, polygon_of M Sh c = Some g /\ c_obstacle c = Some ob /\
        (obst_polygon M Sh ob = g \/
         exists h p d, ob = HullPolygon h p d /\ sh_convex_hull Sh g = Ret h /\ sh_contains Sh h x = false /\ sh_contains Sh h xg = false /\
           forall j c' q, j <> i -> nth_error (a_clusters a) j = Some c' -> polygon_of M Sh c' = Some q -> sh_intersects Sh h q = false) /\
        forall j c' q, j <> i -> nth_error (a_clusters a) j = Some c' -> polygon_of M Sh c' = Some q -> sh_intersects Sh g q = false.
  Proof.
    intros op fuel counter x xg obs a H Fl Un i c' Hi.
    destruct (call_done _ _ _ _ _ _ _ H Fl Un i c' Hi) as (cls2 & c & D & Dj & Hi2 & Ln & F2 & _).
    pose proof D as D'. rewrite Forall_forall in D. destruct (done_polygon M Sh c (D c (nth_error_In _ _ Hi2))) as (ob & Eo & Ep).
    pose proof (F2 i c c' Hi2 Hi) as (_ & _ & _ & _ & Pc & Ob).
    assert (Oth : forall j c1' q, j <> i -> nth_error (a_clusters a) j = Some c1' -> polygon_of M Sh c1' = Some q ->
              exists c1, nth_error cls2 j = Some c1 /\ polygon_of M Sh c1 = Some q).
    { intros j c1' q N Hj Hq. destruct (nth_error cls2 j) as [c1|] eqn:X.
      - exists c1. split; [reflexivity|]. destruct (F2 j c1 c1' X Hj) as (_ & _ & _ & _ & E & _). congruence.
      - exfalso. apply nth_error_None in X. assert (j < List.length (a_clusters a))%nat by (apply nth_error_Some; congruence). lia. }
    assert (Dis : forall j c1' q, j <> i -> nth_error (a_clusters a) j = Some c1' -> polygon_of M Sh c1' = Some q -> sh_intersects Sh (obst_polygon M Sh ob) q = false).
    { intros j c1' q N Hj Hq. destruct (Oth j c1' q N Hj Hq) as (c1 & E1 & E2). apply (Dj i j c c1 _ _ (not_eq_sym N) Hi2 E1 Ep E2). }
    exists (obst_polygon M Sh ob). rewrite Pc. destruct Ob as [->|(g & h & p & d & -> & Pg & Ch & X1 & X2 & X3)].
    - exists ob. auto.
    - exists (HullPolygon h p d). split; [exact Ep|]. split; [reflexivity|]. split; [|exact Dis]. right. exists h, p, d. rewrite Ep in Pg. injection Pg as <-.
      repeat (split; [assumption || reflexivity|]). intros j c1' q N Hj Hq. destruct (Oth j c1' q N Hj Hq) as (c1 & E1 & E2). apply (X3 c1 q); [|exact E2].
      apply in_map_iff. exists (j, c1). split; [reflexivity|]. apply filter_In. split; [|cbn; apply negb_true_iff, Nat.eqb_neq, N].
      clear - E1. assert (Q : forall s, In ((s + j)%nat, c1) (combine (seq s (List.length cls2)) cls2)).
      { revert j E1. induction cls2 as [|z l IH]; intros [|j] E1 s; cbn in *; try discriminate.
        - injection E1 as ->. left. f_equal. lia.
        - right. specialize (IH j E1 (S s)). replace (s + S j)%nat with (S s + j)%nat by lia. exact IH. }
      apply (Q 0%nat).
  Qed.
  (** with the geometry library meaning what it says, the obstacles returned are pairwise disjoint *)
  Theorem C72_convex_disjoint : forall (den : G -> region) op fuel counter x xg obs a, call op fuel counter x xg obs = Val a ->
    a_flag a <> INCOMPLETE -> uncut op a ->
    (forall p q, sh_intersects Sh p q = false -> disjoint (den p) (den q)) ->
    (forall g h, sh_convex_hull Sh g = Ret h -> forall z, den h z <-> hull_region (den g) z) ->
    (forall c g, In c (a_clusters a) -> polygon_of M Sh c = Some g -> exists k, starshaped_from (den g) k) ->
    forall i j ci cj oi oj, i <> j -> nth_error (a_clusters a) i = Some ci -> nth_error (a_clusters a) j = Some cj ->
      c_obstacle ci = Some oi -> c_obstacle cj = Some oj ->
      disjoint (den (obst_polygon M Sh oi)) (den (obst_polygon M Sh oj)).
  Proof.
    intros den op fuel counter x xg obs a H Fl Un Di Hu St i j ci cj oi oj N Hi Hj Oi Oj.
    destruct (C72_make_convex_checks _ _ _ _ _ _ _ H Fl Un i ci Hi) as (gi & oi' & Pi & Oi' & Wi & Ii).
    destruct (C72_make_convex_checks _ _ _ _ _ _ _ H Fl Un j cj Hj) as (gj & oj' & Pj & Oj' & Wj & Ij).
    rewrite Oi in Oi'. injection Oi' as <-. rewrite Oj in Oj'. injection Oj' as <-.
    destruct Wi as [->|(hi & pi & di & -> & Ci & _ & _ & Xi)]; destruct Wj as [->|(hj & pj & dj & -> & Cj & _ & _ & Xj)]; cbn [obst_polygon].
    - apply Di, (Ii j cj gj (not_eq_sym N) Hj Pj).
    - intros z [A B]. apply (Di _ _ (Xj i ci gi N Hi Pi) z). split; assumption.
    - apply Di, (Xi j cj gj (not_eq_sym N) Hj Pj).
    - destruct (St ci gi (nth_error_In _ _ Hi) Pi) as [k Sk]. destruct (St cj gj (nth_error_In _ _ Hj) Pj) as [l Sl].
      intros z [A B]. apply (Hu gi hi Ci) in A. apply (Hu gj hj Cj) in B. apply (hulls_disjoint (den gi) (den gj) k l Sk Sl) with z; [| |split; assumption].
      + intros w [W1 W2]. apply (Di _ _ (Xi j cj gj (not_eq_sym N) Hj Pj) w). split; [apply (Hu gi hi Ci), W1|exact W2].
      + intros w [W1 W2]. apply (Di _ _ (Xj i ci gi N Hi Pi) w). split; [apply (Hu gj hj Cj), W2|exact W1].
  Qed.

  (** C73: the fifth value is there exactly when it was asked for, unless time ran out while making convex *)
  Theorem C73_return_shape_partial : forall op fuel counter x xg obs a, call op fuel counter x xg obs = Val a ->
    (a_flag a <> MAX_COMPUTE_TIME_CONVEX_HULL -> ((exists h, a_history a = Some h) <-> op_return_history op = true)) /\
    (a_flag a = MAX_COMPUTE_TIME_CONVEX_HULL -> a_history a = None /\ op_make_convex op = true) /\
    (op_return_history op = true -> a_flag a = COMPLETE -> exists l, a_history a = Some (Rounds l)).
  Proof.
    intros op fuel counter x xg obs a H. apply call_inv in H as [(_ & n & its & c & ->)|H].
    { cbn. destruct (op_return_history op); (split; [intros _; split; [eauto; intros [? ?]; congruence|intros; eauto; try discriminate]|split; discriminate]). }
    destruct H as (k & c0 & c1 & cls & out & b & c2 & its & its' & cls2 & _ & F & Gc & R & [(Mc & Ec & Ef & Eh)|(Mc & c3 & t & E & Ef & Eh)]).
    - rewrite Ef, Eh. destruct (op_return_history op); (split; [intros _; split; [intros [? ?]; congruence|intros; eauto; try discriminate]|split; [discriminate|intros; eauto; try discriminate]]).
    - rewrite Ef, Eh. destruct t; cbn [andb].
      + destruct (op_return_history op); (split; [intros _; split; [intros [? ?]; congruence|intros; eauto; try discriminate]|split; [discriminate|intros; eauto; try discriminate]]).
      + split; [congruence|]. split; [auto|discriminate].
  Qed.
End Result.
Print Assumptions C67_complete_partial.
Print Assumptions C68_incomplete_returns_obstacles.
Print Assumptions C68_no_tangents_gives_up.
Print Assumptions C69_no_obstacle_lost_partial.
Print Assumptions C71_feedback_partial.
Print Assumptions C72_make_convex_checks.
Print Assumptions C72_convex_disjoint.
Print Assumptions C73_return_shape_partial.
