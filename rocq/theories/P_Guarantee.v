(** C100: what a complete answer of cluster_and_starify guarantees, for convex obstacles. *)
From Coq Require Import String Reals List Bool Arith ZArith Lia Lra Permutation.
From Verif Require Import Num Spec S_Guarantee M_Cg M_Motion M_Obstacle M_Clusters L_Clusters P_Clusters M_StarHull M_Starify L_Geom L_Hull L_Cg L_Cone P_Cone
  P_KernelPoints L_Starify P_Starify P_StarifyResult P_StarHull L_Guarantee.
Import ListNotations.
Open Scope R_scope.

Section Guarantee.
  Context {Obs G : Type} (M : methods Obs G) (Sh : shapely G) (setl : list nat -> list nat).
  Variables (den : G -> region) (body : Obs -> region) (unique : list Pt -> list Pt).
  Variables (op : options Obs G) (x xg : Pt) (obs : list Obs).
  Notation cluster := (cluster Obs G).
  Notation call := (cluster_and_starify M Sh setl).

  (** the region of a cluster obstacle: its members and its hull *)
  Definition obst_region (ob : cluster_obst Obs G) : region := fun p =>
    match ob with
    | Original o _ => body o p
    | Combination l hull _ _ => (exists o, In o l /\ body o p) \/ (exists h, hull = Some h /\ den h p)
    | HullPolygon h _ _ => den h p
    end.
  (** the directions from [p] away from the tangent points of the obstacles *)
  Definition directions_at (p : Pt) (l : list Obs) : list Pt :=
    flat_map (fun o => match ob_tangent_points M o p with Ret (t1 :: t2 :: _) => [vsub p t1; vsub p t2] | _ => [] end) l.
  (** what is assumed of shapely: [den g] is the set of points of the geometry [g] *)
  Record faithful_geometry : Prop := {
    fg_intersection : forall g h p, den (sh_intersection Sh g h) p -> den g p /\ den h p;
    fg_union : forall l p, den (sh_union Sh l) p <-> exists g, In g l /\ den g p;
    fg_is_empty : forall g p, sh_is_empty Sh g = true -> ~ den g p;
    fg_empty : forall p, ~ den (op_empty op) p;
    fg_cone : forall c g p, apex c = x \/ apex c = xg -> In (dir1 c) (directions_at (apex c) obs) -> In (dir2 c) (directions_at (apex c) obs) ->
      wf_cone c -> apart (dir1 c) (dir2 c) -> sh_cone Sh c = Ret g -> den g p -> cross (dir1 c) (vsub p (apex c)) <> 0 -> cross (dir2 c) (vsub p (apex c)) <> 0 ->
      in_sector (dir1 c) (dir2 c) (vsub p (apex c)) }.
  (** what is assumed of the obstacles: convex sets with the tangent points of C61 *)
  Record convex_obstacles : Prop := {
    co_convex : forall o, In o obs -> ob_is_convex M o = true /\ ob_is_starshaped M o = true /\ convex (body o);
    co_ids : NoDup (map (ob_id M) obs);
    co_tangents : forall o p, In o obs -> p = x \/ p = xg -> tangents_of (ob_tangent_points M o) (body o) p }.
  (** the hull of [o] for a kernel triangle is the convex hull of the triangle and the tangent points from it (C62) *)
  Definition hull_right (o : Obs) (a b c : Pt) : Prop := forall g, ob_convex_hull M o (a, b, c) = Val g ->
    exists pts, hull_points (ob_tangent_points M o) [a; b; c] unique pts /\ forall q, den g q <-> in_hull pts q.

  Hypothesis setl_ok : set_order setl.
  Hypothesis symmetric : forall p q, sh_intersects Sh p q = sh_intersects Sh q p.
  Hypothesis unique_ok : forall l p, In p (unique l) <-> In p l.
  Hypothesis geometry : faithful_geometry.
  Hypothesis obstacles : convex_obstacles.

  (** *** how a cluster was made *)
  Definition made (c : cluster) (kp : Pt * Pt * Pt) (hull : option G) (ob : cluster_obst Obs G) : Prop :=
    (exists o, c_obstacles c = [o] /\ hull = None /\ ob = Original o (Some (triangle_mean kp))) \/
    (exists i, ob = Combination (c_obstacles c) hull (triangle_mean kp) i).
  Definition built (k : cones G) (c : cluster) : Prop :=
    incl (c_obstacles c) obs /\ exists kp adm ar ag hull ob,
      c_kernel_points c = Some kp /\ c_admissible_kernel c = Some adm /\
      cones_polygon M Sh op (k_robot k) (c_obstacles c) = Val ar /\ cones_polygon M Sh op (k_goal k) (c_obstacles c) = Val ag /\
      (forall p, den adm p -> den ar p /\ den ag p) /\
      kernel_starshaped_hull M Sh (c_obstacles c) kp = Val hull /\ c_obstacle c = Some ob /\ made c kp hull ob /\
      exists prev draws timer, compute_kernel_points M Sh adm (c_obstacles c) x xg (op_epsilon op) prev (workspace op) draws timer = Val kp.

  Lemma filter_all {A} (f : A -> bool) l : (forall a, In a l -> f a = true) -> filter f l = l.
  Proof. induction l as [|a l IH]; intros H; cbn; [reflexivity|]. rewrite (H a (or_introl eq_refl)), IH; [reflexivity|]. intros; apply H; right; assumption. Qed.
  Lemma single_cone d o c : get_cone d (ob_id M o) = Val c -> forall g, of_res (sh_cone Sh c) = Val g -> cones_polygon M Sh op d [o] = Val g.
  Proof. intros E g Eg. unfold cones_polygon. cbn [omap]. rewrite E. cbn [obind list_intersection list_intersection_loop union_of_cones]. exact Eg. Qed.
  Lemma first_built k counter i o r : In o obs -> first_cluster M Sh op x xg k counter i o = Val r -> built k (snd r).
  Proof.
    intros Ho H. unfold first_cluster in H. obinvs H.
    assert (B : forall kp hull ob nm pg, a3 = kp -> a5 = hull -> made (Cluster nm [o] (Some ob) (Some kp) (Some (sh_intersection Sh a1 a2)) pg) kp hull ob ->
      built k (Cluster nm [o] (Some ob) (Some kp) (Some (sh_intersection Sh a1 a2)) pg)).
    { intros kp hull ob nm pg <- <- Md. split; [intros z [<-|[]]; exact Ho|]. exists a3, (sh_intersection Sh a1 a2), a1, a2, a5, ob. cbn [c_kernel_points c_admissible_kernel c_obstacles c_obstacle].
      split; [reflexivity|]. split; [reflexivity|]. split; [apply (single_cone _ _ _ E _ E1)|]. split; [apply (single_cone _ _ _ E0 _ E2)|].
      split; [apply (fg_intersection geometry)|]. split; [exact E5|]. split; [reflexivity|]. split; [exact Md|]. eexists _, _, _. exact E3. }
    destruct a5 as [h|].
    - destruct (set_id counter a4) as [c' oid]. injection H as <-. cbn [snd]. apply (B a3 (Some h)); auto. right. exists oid. reflexivity.
    - destruct (is_star_class (ob_class M o)); [|discriminate]. injection H as <-. cbn [snd]. apply (B a3 None); auto. left. exists o. auto.
  Qed.
  Lemma firsts_built k : forall l counter i r, incl l obs -> first_clusters M Sh op x xg k counter i l = Val r -> Forall (built k) (snd r).
  Proof.
    induction l as [|o l IH]; intros counter i r I H; cbn in H; [injection H as <-; constructor|]. obinv H. destruct a as [c1 cl]. obinv H. destruct a as [c2 cls]. injection H as <-. cbn [snd].
    constructor; [apply (first_built k counter i o (c1, cl)); [apply I; left; reflexivity|exact E]|]. apply (IH _ _ _ (fun z Hz => I z (or_intror Hz)) E0).
  Qed.
  Lemma exclude_sub d : forall all l g p, den (exclude_from M Sh d all l g) p -> den g p.
  Proof.
    intros all l. unfold exclude_from. induction l as [|o l IH]; intros g p H; cbn [fold_left] in H; [exact H|]. apply IH in H. clear IH.
    revert g H. induction all as [|e all IH]; intros g H; cbn [fold_left] in H; [exact H|]. apply IH in H.
    destruct (id_eqb _ _); [exact H|]. destruct (lookup2 _ _ d) as [[e'|]|]; [|exact H|exact H]. apply (fg_intersection geometry) in H. tauto.
  Qed.
  Lemma later_built k all n i counter cl r : incl (c_obstacles cl) obs -> later_cluster M Sh op x xg all k n i counter cl = Val (inl r) -> built k (snd r).
  Proof.
    intros I H. unfold later_cluster in H. obinvs H. destruct (vanishing Sh _); [discriminate|]. cbv zeta in H. obinvs H.
    destruct (set_id counter a2) as [c' oid]. injection H as <-. cbn [snd]. split; [exact I|].
    do 6 eexists. cbn [c_kernel_points c_admissible_kernel c_obstacles c_obstacle].
    split; [reflexivity|]. split; [reflexivity|]. split; [exact E|]. split; [exact E0|]. split; [|split; [exact E3|split; [reflexivity|split; [|eexists _, _, _; exact E1]]]].
    - intros p Hp. destruct (op_exclude_obstacles op && _).
      + apply exclude_sub in Hp. apply (fg_intersection geometry), Hp.
      + apply (fg_intersection geometry), Hp.
    - right. exists oid. rewrite filter_all; [reflexivity|]. intros o Ho. apply (co_convex obstacles o (I o Ho)).
  Qed.
  Lemma read_built k c : built k c -> built k (fst (read_polygon M Sh c)).
  Proof.
    intros (I & kp & adm & ar & ag & hull & ob & A1 & A2 & A3 & A4 & A5 & A6 & A7 & A8 & A9). unfold read_polygon. destruct (c_polygon c); [|rewrite A7]; cbn [fst].
    - split; [exact I|]. exists kp, adm, ar, ag, hull, ob. auto 12.
    - split; [exact I|]. exists kp, adm, ar, ag, hull, ob. cbn. auto 12.
  Qed.
  Notation within c := (incl (c_obstacles c) obs).
  Lemma round_built k all n : forall todo i counter h c' h' cls, starify_round M Sh op x xg all k n i counter h todo = Val (c', h', cls, false) ->
    Forall (fun c => within c) todo -> Forall (built k) h -> Forall (built k) h' /\ Forall (built k) cls.
  Proof.
    induction todo as [|cl todo IH]; intros i counter h c' h' cls H T B; cbn in H; [injection H as <- <- <-; auto|].
    inversion T as [|? ? T1 T2]; subst. destruct (history_lookup (c_name cl) h) as [old|] eqn:L.
    - obinv H. destruct a as [[[c1 h1] cls1] q]. injection H as <- <- <- ->. destruct (IH _ _ _ _ _ _ E T2 B) as [A1 A2]. split; [exact A1|]. constructor; [|exact A2].
      apply history_some in L as [L1 _]. rewrite Forall_forall in B. apply B, L1.
    - obinv H. destruct a as [[c1 cl']|cl']; [|discriminate]. obinv H. destruct a as [[[c2 h2] cls2] q]. injection H as <- <- <- ->.
      apply (later_built k all n i counter cl (c1, cl') T1) in E. cbn [snd] in E. destruct (IH _ _ _ _ _ _ E0 T2 (Forall_cons _ E B)) as [A1 A2]. auto.
  Qed.
  Lemma gic_within cls out b : Forall (done M Sh) cls -> get_intersection_clusters M Sh setl cls = Val (out, b) ->
    Forall (fun c => within c) cls -> Forall (fun c => within c) out.
  Proof.
    intros D H W. destruct (C65_preserves_obstacles M Sh setl setl_ok cls out b (done_has M Sh cls D) H) as [P _].
    apply Forall_forall. intros c Hc o Ho. assert (I : In o (flat_map c_obstacles cls)) by (apply (Permutation_in _ P), in_flat_map; eauto).
    apply in_flat_map in I as (c' & Hc' & Ho'). rewrite Forall_forall in W. apply (W c' Hc'), Ho'.
  Qed.
  Lemma gic_built k cls out : Forall (done M Sh) cls -> get_intersection_clusters M Sh setl cls = Val (out, false) -> Forall (built k) cls -> Forall (built k) out.
  Proof.
    intros D H B. rewrite (gic_value M Sh setl cls (done_has M Sh cls D)) in H. destruct (intersections_exist _ _); [discriminate|]. injection H as <-.
    apply Forall_forall. intros c Hc. apply in_map_iff in Hc as (c' & <- & Hc'). rewrite Forall_forall in B. apply read_built, B, Hc'.
  Qed.
  Lemma built_within k cls : Forall (built k) cls -> Forall (fun c => within c) cls.
  Proof. intros B. eapply Forall_impl; [|exact B]. intros c [I _]. exact I. Qed.
  Lemma rounds_mono k all : forall f n counter h its cls ex c' n' its' out,
    rounds M Sh setl op x xg all k f n counter h its cls ex = Val (Finished c' n' its' out) -> (n <= n')%nat.
  Proof.
    induction f as [|f IH]; intros n counter h its cls ex c' n' its' out H; cbn [rounds] in H; (destruct ex; [|injection H as <- <- <- <-; lia]); [discriminate|].
    destruct (op_late op (AtRound n)); [discriminate|]. obinv H. destruct a as [[[c1 h1] cls1] q]. destruct q; [discriminate|]. obinv H. destruct a as [out1 b].
    destruct (match op_max_iterations op with Some m0 => (m0 <=? S n)%nat | None => false end); [injection H as <- <- <- <-; lia|]. apply IH in H. lia.
  Qed.
  Lemma rounds_built k all : forall f n counter h its cls ex c' n' its' out,
    loop_inv M Sh h cls ex -> Forall (built k) h -> Forall (fun c => within c) cls -> (ex = false -> Forall (built k) cls) ->
    rounds M Sh setl op x xg all k f n counter h its cls ex = Val (Finished c' n' its' out) ->
    (forall m, op_max_iterations op = Some m -> n' = n \/ (n' < m)%nat) -> Forall (built k) out.
  Proof.
    induction f as [|f IH]; intros n counter h its cls ex c' n' its' out I Bh W Bc H Mx; cbn [rounds] in H.
    - destruct ex; [discriminate|]. injection H as <- <- <- <-. auto.
    - destruct ex; [|injection H as <- <- <- <-; auto].
      destruct (op_late op (AtRound n)); [discriminate|]. obinv H. destruct a as [[[c1 h1] cls1] q].
      destruct q; [discriminate|]. obinv H. destruct a as [out1 b].
      destruct I as (D & N & L0). destruct (round_inv M Sh setl setl_ok _ _ _ _ _ _ _ _ _ _ _ _ _ _ E N D E0) as (I' & D1 & _ & L').
      destruct (round_built k all n _ _ _ _ _ _ _ E W Bh) as [B1 B2].
      assert (W' := gic_within _ _ _ D1 E0 (built_within _ _ B2)). assert (Bc' : b = false -> Forall (built k) out1) by (intros ->; apply (gic_built k cls1); assumption).
      destruct (match op_max_iterations op with Some m0 => (m0 <=? S n)%nat | None => false end) eqn:Cut.
      + injection H as <- <- <- <-. destruct (op_max_iterations op) as [m|]; [|discriminate]. apply Nat.leb_le in Cut. destruct (Mx m eq_refl); lia.
      + apply (IH _ _ _ _ _ _ _ _ _ _ I' B1 W' Bc' H). intros m Em. destruct (Mx m Em) as [->|]; [|right; assumption]. exfalso. apply rounds_mono in H. lia.
  Qed.

  (** *** the cones are those of the obstacles *)
  Definition entries (at_ : Pt) (d : list (option Z * cone R)) : Prop :=
    forall i c, In (i, c) d -> exists o, In o obs /\ i = ob_id M o /\ admissible_kernel (ob_tangent_points M o) at_ = Ret (Some c).
  Lemma prepare_entries all : forall l i k r, incl l obs -> prepare M Sh op x xg all i l k = Val (Some r) ->
    entries x (k_robot k) -> entries xg (k_goal k) -> entries x (k_robot r) /\ entries xg (k_goal r).
  Proof.
    induction l as [|o l IH]; intros i k r I H Ex Eg; cbn [prepare] in H; [injection H as <-; auto|]. destruct (op_late op _); [discriminate|].
    obinv H. apply of_res_val in E. obinv H. apply of_res_val in E0. destruct a as [cx|]; [|discriminate]. destruct a0 as [cg|]; [|discriminate]. obinv H.
    apply (IH _ _ _ (fun z Hz => I z (or_intror Hz)) H); intros i' c' [J|J]; auto; injection J as <- <-; exists o; auto using in_eq.
  Qed.
  Lemma id_eqb_eq a b : id_eqb a b = true -> a = b.
  Proof. destruct a, b; cbn; try discriminate; [|reflexivity]. intros H. apply Z.eqb_eq in H. congruence. Qed.
  Lemma same_id o o' : In o obs -> In o' obs -> ob_id M o = ob_id M o' -> o = o'.
  Proof.
    intros H H' E. pose proof (co_ids obstacles) as N. revert N H H'. clear - E. induction obs as [|a l IH]; [intros _ []|]. cbn [map]. intros N H H'. inversion N as [|? ? N1 N2]; subst.
    destruct H as [->|H], H' as [->|H']; auto; [exfalso; apply N1; rewrite E; apply in_map, H'|exfalso; apply N1; rewrite <- E; apply in_map, H].
  Qed.
  Lemma entry_of at_ d o c : entries at_ d -> In o obs -> get_cone d (ob_id M o) = Val c -> admissible_kernel (ob_tangent_points M o) at_ = Ret (Some c).
  Proof.
    intros En Ho H. unfold get_cone, lookup in H. destruct (find _ d) as [[i c']|] eqn:F; [|discriminate]. cbn [snd] in H. injection H as ->.
    apply find_some in F as [F1 F2]. cbn [fst] in F2. apply id_eqb_eq in F2. destruct (En i c F1) as (o' & Ho' & E & A). rewrite (same_id o o' Ho Ho'); [exact A|congruence].
  Qed.
  Lemma omap_in {A B} (f : A -> outcome B) : forall l r, omap f l = Val r -> Forall2 (fun a b => f a = Val b) l r.
  Proof. induction l as [|a l IH]; intros r H; cbn in H; [injection H as <-; constructor|]. obinv H. obinv H. injection H as <-. constructor; auto. Qed.
  Lemma Forall2_left {A B} (P : A -> B -> Prop) l r a : Forall2 P l r -> In a l -> exists b, In b r /\ P a b.
  Proof. induction 1 as [|? ? ? ? H F IH]; intros I; [destruct I|]. destruct I as [<-|I]; [eexists; split; [left; reflexivity|exact H]|]. destruct (IH I) as (b & Hb & Pb). exists b. split; [right|]; assumption. Qed.
  Lemma Forall2_right {A B} (P : A -> B -> Prop) l r b : Forall2 P l r -> In b r -> exists a, In a l /\ P a b.
  Proof. induction 1 as [|? ? ? ? H F IH]; intros I; [destruct I|]. destruct I as [<-|I]; [eexists; split; [left; reflexivity|exact H]|]. destruct (IH I) as (a & Ha & Pa). exists a. split; [right|]; assumption. Qed.

  (* the cone of an obstacle seen from outside *)
  Lemma cone_shape at_ o c : at_ = x \/ at_ = xg -> In o obs -> admissible_kernel (ob_tangent_points M o) at_ = Ret (Some c) ->
    ~ body o at_ /\ exists t1 t2, ob_tangent_points M o at_ = Ret [t1; t2] /\ tangent_pair (body o) at_ t1 t2 /\ c = Cone at_ (psub at_ t1) (psub at_ t2).
  Proof.
    intros Ha Ho E. destruct (co_tangents obstacles o at_ Ho Ha) as [[_ T]|[N (t1 & t2 & T & P)]].
    - unfold admissible_kernel in E. rewrite T in E. discriminate.
    - split; [exact N|]. exists t1, t2. split; [exact T|]. split; [exact P|]. unfold admissible_kernel in E. rewrite T in E. cbn [bind] in E. congruence.
  Qed.
  Lemma cones_dirs at_ l cs : at_ = x \/ at_ = xg -> incl l obs -> Forall2 (fun o c => admissible_kernel (ob_tangent_points M o) at_ = Ret (Some c)) l cs ->
    dirs cs = directions_at at_ l /\ (forall c, In c cs -> wf_cone c /\ apex c = at_).
  Proof.
    intros Ha I F. induction F as [|o c l cs E F IH]; [split; [reflexivity|intros ? []]|]. destruct IH as [D W]; [intros z Hz; apply I; right; exact Hz|].
    destruct (cone_shape at_ o c Ha (I o (or_introl eq_refl)) E) as (_ & t1 & t2 & T & _ & ->). unfold directions_at. cbn [flat_map]. rewrite T. split.
    - cbn [dirs flat_map]. fold (dirs cs). rewrite D. reflexivity.
    - intros c [<-|H]; [split; [apply Cone_wf|reflexivity]|auto].
  Qed.
  Lemma wedge_rejected (O : region) p t1 t2 q : tangent_pair O p t1 t2 -> TH < area2 p t1 q -> area2 p t2 q < - TH -> point_in_cone (Cone p (psub p t1) (psub p t2)) q = false.
  Proof.
    intros (_ & _ & T & _) A B.
    assert (S1 : forall k, area2 p (padd p (psub p t1)) k = - area2 p t1 k) by (intros [k1 k2]; destruct p, t1; unfold padd, psub; nR; unv; ring).
    assert (S2 : forall k, area2 p (padd p (psub p t2)) k = - area2 p t2 k) by (intros [k1 k2]; destruct p, t2; unfold padd, psub; nR; unv; ring).
    assert (Nc : is_ccw (n0, n0) (psub p t1) (psub p t2) = false).
    { destruct (is_ccw (n0, n0) (psub p t1) (psub p t2)) eqn:Q; [exfalso|reflexivity]. apply is_ccw_iff in Q. pose proof TH_pos.
      replace (area2 (n0, n0) (psub p t1) (psub p t2)) with (area2 p t1 t2) in Q; [lra|]. unfold n0, psub; nR. rewrite Num.Q2R_0. destruct p, t1, t2. unv. ring. }
    unfold point_in_cone. cbn [is_convex apex dir1 dir2 Cone]. rewrite Nc, negb_false_iff, andb_true_iff, is_ccw_iff, is_cw_iff, S1, S2. lra.
  Qed.

  Lemma union_cone l ar q : union_of_cones Sh l = Val ar -> den ar q -> exists c g, In c l /\ sh_cone Sh c = Ret g /\ den g q.
  Proof.
    intros H D. assert (Gen : obind (omap (fun c => of_res (sh_cone Sh c)) l) (fun gs => Val (sh_union Sh gs)) = Val ar -> exists c g, In c l /\ sh_cone Sh c = Ret g /\ den g q).
    { clear H. intros H. obinv H. injection H as <-. apply (fg_union geometry) in D as (g & Hg & D). apply omap_in in E. destruct (Forall2_right _ _ _ g E Hg) as (c & Hc & Ec). apply of_res_val in Ec. eauto. }
    destruct l as [|c [|c' l]]; [exact (Gen H)| |exact (Gen H)]. cbn [union_of_cones] in H. apply of_res_val in H. exists c, ar. cbn. auto.
  Qed.

  Lemma kernel_free at_ d l ar q : at_ = x \/ at_ = xg -> entries at_ d -> incl l obs -> general_directions (directions_at at_ l) ->
    cones_polygon M Sh op d l = Val ar -> den ar q -> (forall v, In v (directions_at at_ l) -> cross v (vsub q at_) <> 0) ->
    forall o t1 t2, In o l -> ob_tangent_points M o at_ = Ret [t1; t2] -> tangent_pair (body o) at_ t1 t2 -> ~ (0 < area2 at_ t1 q /\ area2 at_ t2 q < 0).
  Proof.
    intros Ha En I Gd H D Off o t1 t2 Ho T TP [A1 A2]. unfold cones_polygon in H. obinv H. rename a into cs. apply omap_in in E.
    assert (F : Forall2 (fun o c => admissible_kernel (ob_tangent_points M o) at_ = Ret (Some c)) l cs).
    { clear - E En I obstacles. induction E as [|o c l cs E F IH]; [constructor|]. constructor; [apply (entry_of at_ d); auto; apply I; left; reflexivity|]. apply IH. intros z Hz. apply I. right. exact Hz. }
    destruct (cones_dirs at_ l cs Ha I F) as [Ed Wf].
    destruct (far_out (directions_at at_ l) (vsub q at_) Off) as (lam & L & Ap).
    set (q' := vadd at_ (smul lam (vsub q at_))). assert (Eq : vsub q' at_ = smul lam (vsub q at_)) by (unfold q'; destruct at_, q; unv; f_equal; ring).
    assert (Ne : cs <> []) by (destruct (Forall2_left _ _ _ o F Ho) as (b & Hb & _); intros ->; destruct Hb).
    pose proof (list_intersection_ok at_ q' cs Ne Wf) as K. rewrite Ed in K. specialize (K ltac:(intros u Hu; rewrite Eq; apply Ap, Hu) Gd).
    destruct (list_intersection cs) as [| |lc] eqn:Li; [discriminate|injection H as <-; apply (fg_empty geometry q), D|].
    destruct K as [_ K]. destruct (union_cone lc ar q H D) as (c & g & Hc & Ec & Dg).
    pose proof (list_good at_ cs lc Wf ltac:(rewrite Ed; exact Gd) Li c Hc) as (W & Ac & I1 & I2 & P12). rewrite Ed in I1, I2.
    assert (Sub : forall v, In v (directions_at at_ l) -> In v (directions_at at_ obs)).
    { intros v Hv. unfold directions_at in *. apply in_flat_map in Hv as (o' & Ho' & Hv). apply in_flat_map. exists o'. split; [apply I, Ho'|exact Hv]. }
    assert (Sec : in_sector (dir1 c) (dir2 c) (vsub q (apex c))).
    { apply (fg_cone geometry c g q); rewrite ?Ac; auto. }
    rewrite Ac in Sec. apply (in_sector_scale _ _ _ lam) in Sec; [|lra]. rewrite <- Eq in Sec.
    assert (Pc : point_in_cone c q' = true).
    { rewrite W, Ac. apply C15_point_in_cone_is_sector; [exact P12|rewrite Eq; apply Ap, I1|rewrite Eq; apply Ap, I2|exact Sec]. }
    destruct (Forall2_left _ _ _ o F Ho) as (c' & Hc' & Ek). unfold admissible_kernel in Ek. rewrite T in Ek. cbn [bind] in Ek. injection Ek as <-.
    assert (Pt : point_in_cone (Cone at_ (psub at_ t1) (psub at_ t2)) q' = true) by (apply (proj1 K); [exists c; auto|exact Hc']).
    rewrite (wedge_rejected (body o) at_ t1 t2 q' TP) in Pt; [discriminate| |].
    - assert (In1 : In (vsub at_ t1) (directions_at at_ l)) by (apply in_flat_map; exists o; rewrite T; cbn; auto). specialize (Ap _ In1). unfold apart in Ap. rewrite <- Eq in Ap.
      assert (X : cross (vsub at_ t1) (vsub q' at_) = - area2 at_ t1 q') by (destruct at_, t1, q'; unv; ring). rewrite X, Rabs_Ropp in Ap.
      assert (0 < area2 at_ t1 q') by (unfold q'; replace (area2 at_ t1 (vadd at_ (smul lam (vsub q at_)))) with (lam * area2 at_ t1 q) by (destruct at_, t1, q; unv; ring); nra). rewrite Rabs_right in Ap by lra. exact Ap.
    - assert (In2 : In (vsub at_ t2) (directions_at at_ l)) by (apply in_flat_map; exists o; rewrite T; cbn; auto). specialize (Ap _ In2). unfold apart in Ap. rewrite <- Eq in Ap.
      assert (X : cross (vsub at_ t2) (vsub q' at_) = - area2 at_ t2 q') by (destruct at_, t2, q'; unv; ring). rewrite X, Rabs_Ropp in Ap.
      assert (area2 at_ t2 q' < 0) by (unfold q'; replace (area2 at_ t2 (vadd at_ (smul lam (vsub q at_)))) with (lam * area2 at_ t2 q) by (destruct at_, t2, q; unv; ring); nra). rewrite Rabs_left in Ap by lra. lra.
  Qed.
  Lemma nonzero_dirs at_ l v : at_ = x \/ at_ = xg -> incl l obs -> In v (directions_at at_ l) -> v <> (0, 0).
  Proof.
    intros Ha I H. apply in_flat_map in H as (o & Ho & H). destruct (co_tangents obstacles o at_ (I o Ho) Ha) as [[_ T]|[N (t1 & t2 & T & (P1 & P2 & _))]]; rewrite T in H; [destruct H|].
    assert (Z : forall t : Pt, body o t -> vsub at_ t <> (0, 0)).
    { intros t Ht E. apply N. replace at_ with t; [exact Ht|]. destruct at_, t. unfold vsub in E. cbn in E. injection E as E1 E2. f_equal; lra. }
    destruct H as [<-|[<-|[]]]; auto.
  Qed.
  Lemma not_hidden at_ d l ar (adm : region) k : at_ = x \/ at_ = xg -> entries at_ d -> incl l obs -> general_directions (directions_at at_ l) ->
    cones_polygon M Sh op d l = Val ar -> (forall q, adm q -> den ar q) -> interior adm k -> forall o, In o l -> ~ hides_behind (body o) at_ k.
  Proof.
    intros Ha En I Gd H Sub Int o Ho.
    assert (Ex : exists t1 t2, ~ body o at_ /\ ob_tangent_points M o at_ = Ret [t1; t2] /\ tangent_pair (body o) at_ t1 t2).
    { pose proof H as H'. unfold cones_polygon in H'. obinv H'. apply omap_in in E. destruct (Forall2_left _ _ _ o E Ho) as (c & _ & Ec).
      destruct (cone_shape at_ o c Ha (I o Ho) (entry_of at_ d o c En (I o Ho) Ec)) as (N & t1 & t2 & T & P & _). eauto. }
    destruct Ex as (t1 & t2 & N & T & P).
    apply (not_blocked adm (body o) at_ t1 t2 (directions_at at_ l) k N P); [intros v Hv; apply (nonzero_dirs at_ l v Ha I Hv)|exact Int|].
    intros q Hq Off. apply (kernel_free at_ d l ar q Ha En I Gd H (Sub q Hq) Off o t1 t2 Ho T P).
  Qed.

  (** *** the region of the cluster obstacle *)
  Lemma hull_pieces l kp hull : incl l obs -> kernel_starshaped_hull M Sh l kp = Val hull ->
    forall o, In o l -> exists g, ob_convex_hull M o kp = Val g /\ (forall p, den g p -> exists h, hull = Some h /\ den h p).
  Proof.
    intros I H o Ho. unfold kernel_starshaped_hull in H. obinv H. injection H as <-. apply omap_in in E. destruct (Forall2_left _ _ _ o E Ho) as (g & Hg & Eg).
    unfold hull_of in Eg. rewrite (proj1 (co_convex obstacles o (I o Ho))) in Eg. exists g. split; [exact Eg|]. intros p Hp.
    assert (U : den (sh_union Sh a) p) by (apply (fg_union geometry); eauto). destruct (sh_is_empty Sh (sh_union Sh a)) eqn:Em; [destruct (fg_is_empty geometry _ p Em U)|eauto].
  Qed.
  Lemma hull_covered l kp h p : incl l obs -> kernel_starshaped_hull M Sh l kp = Val (Some h) -> den h p -> exists o g, In o l /\ ob_convex_hull M o kp = Val g /\ den g p.
  Proof.
    intros I H Hp. unfold kernel_starshaped_hull in H. obinv H. destruct (sh_is_empty Sh (sh_union Sh a)); [discriminate|]. injection H as <-.
    apply (fg_union geometry) in Hp as (g & Hg & Hp). apply omap_in in E. destruct (Forall2_right _ _ _ g E Hg) as (o & Ho & Eg).
    unfold hull_of in Eg. rewrite (proj1 (co_convex obstacles o (I o Ho))) in Eg. eauto.
  Qed.
  Lemma region_iff c kp hull ob p : incl (c_obstacles c) obs -> kernel_starshaped_hull M Sh (c_obstacles c) kp = Val hull -> made c kp hull ob ->
    (obst_region ob p <-> exists o, In o (c_obstacles c) /\ (body o p \/ exists g, ob_convex_hull M o kp = Val g /\ den g p)).
  Proof.
    intros I H Md. destruct Md as [(o & Eo & -> & ->)|(i & ->)]; cbn [obst_region].
    - rewrite Eo in *. split; [intros Hp; exists o; cbn; auto|]. intros (o' & [<-|[]] & [Hp|(g & Eg & Hp)]); [exact Hp|].
      destruct (hull_pieces [o] kp None I H o (or_introl eq_refl)) as (g' & Eg' & Hg'). rewrite Eg in Eg'. injection Eg' as <-. destruct (Hg' p Hp) as (h & Z & _). discriminate.
    - split.
      + intros [(o & Ho & Hp)|(h & -> & Hp)]; [exists o; auto|]. destruct (hull_covered _ _ _ _ I H Hp) as (o & g & Ho & Eg & Hg). exists o. split; [exact Ho|right; eauto].
      + intros (o & Ho & [Hp|(g & Eg & Hp)]); [left; eauto|right]. destruct (hull_pieces _ kp hull I H o Ho) as (g' & Eg' & Hg'). rewrite Eg in Eg'. injection Eg' as <-. apply Hg', Hp.
  Qed.

  (** the mean of the kernel triangle is a point of it *)
  Lemma mean_in_triangle a b c : in_hull [a; b; c] (triangle_mean (a, b, c)).
  Proof.
    exists [1 / 3; 1 / 3; 1 / 3]. split; [reflexivity|]. split; [repeat constructor; lra|]. split; [cbn; lra|]. destruct a, b, c. unfold triangle_mean. cbn. unfold vadd, smul. cbn [fst snd]. f_equal; field.
  Qed.

  Lemma finished_built fuel counter a : call op fuel counter x xg obs = Val a -> a_flag a <> INCOMPLETE -> uncut op a ->
    exists k cls2 c2, entries x (k_robot k) /\ entries xg (k_goal k) /\ Forall (built k) cls2 /\
      ((forall p q, sh_intersects Sh p q = sh_intersects Sh q p) -> Forall (done M Sh) cls2 /\ disjoint_list M Sh cls2) /\
      ((op_make_convex op = false /\ a_clusters a = cls2) \/
       (op_make_convex op = true /\ exists c3 t, convexify M Sh op x xg c2 [] cls2 = Val (c3, t, a_clusters a) /\ a_flag a = if t then COMPLETE else MAX_COMPUTE_TIME_CONVEX_HULL)).
  Proof.
    intros H Fl Un. apply call_inv in H as [[E _]|H]; [congruence|].
    destruct H as (k & c0 & c1 & cls & out & b & c2 & its & its' & cls2 & Pr & F & Gc & R & W).
    destruct (prepare_entries obs obs 0%nat (Cones [] [] []) k (incl_refl obs) Pr) as [Ex Eg]; [intros ? ? []|intros ? ? []|].
    destruct (first_inv M Sh setl setl_ok _ _ _ _ _ _ _ _ _ _ F Gc) as (D & _ & I & _).
    assert (Bf : Forall (built k) cls) by apply (firsts_built k obs _ _ _ (incl_refl obs) F).
    assert (Bl : Forall (built k) cls2).
    { apply (rounds_built k obs fuel 1 c1 (rev cls) its out b c2 (a_iter a) its' cls2 I); [apply Forall_rev, Bf|apply (gic_within cls out b D Gc), (built_within k), Bf| |exact R|exact Un].
      intros ->. apply (gic_built k cls); assumption. }
    exists k, cls2, c2. split; [exact Ex|]. split; [exact Eg|]. split; [exact Bl|]. split; [intros Sy; apply (finished_done M Sh setl setl_ok Sy _ _ _ _ _ _ _ _ _ _ _ _ _ _ _ _ F Gc R Un)|]. destruct W as [(Mc & Ec & _)|(Mc & c3 & t & E & Ef & _)]; [left; auto|right; eauto].
  Qed.
  Lemma answer_built fuel counter a : call op fuel counter x xg obs = Val a -> a_flag a = COMPLETE -> op_make_convex op = false -> uncut op a ->
    exists k, entries x (k_robot k) /\ entries xg (k_goal k) /\ forall cl, In cl (a_clusters a) -> built k cl.
  Proof.
    intros H Fl Mc Un. destruct (finished_built fuel counter a H ltac:(congruence) Un) as (k & cls2 & c2 & Ex & Eg & Bl & _ & [[_ ->]|[E _]]); [|congruence].
    exists k. split; [exact Ex|]. split; [exact Eg|]. apply Forall_forall, Bl.
  Qed.

  (** what building a cluster gives *)
  Lemma built_guarantee k cl : entries x (k_robot k) -> entries xg (k_goal k) -> built k cl -> exists ob a1 a2 a3 adm,
      c_obstacle cl = Some ob /\ c_kernel_points cl = Some (a1, a2, a3) /\ c_admissible_kernel cl = Some adm /\
      obst_xr M ob = Val (triangle_mean (a1, a2, a3)) /\ in_hull [a1; a2; a3] (triangle_mean (a1, a2, a3)) /\
      (* the members are inside *)
      (forall o p, In o (c_obstacles cl) -> body o p -> obst_region ob p) /\
      ((forall o, In o (c_obstacles cl) -> hull_right o a1 a2 a3 /\ forall k, In k [a1; a2; a3] -> tangents_of (ob_tangent_points M o) (body o) k) ->
       (* star-shaped from every point of the kernel triangle *)
       (forall k, in_hull [a1; a2; a3] k -> starshaped_from (obst_region ob) k) /\
       (* robot and goal are outside, when the kernel triangle lies inside the admissible kernel *)
       (general_directions (directions_at x (c_obstacles cl)) -> general_directions (directions_at xg (c_obstacles cl)) ->
        (forall k, in_hull [a1; a2; a3] k -> interior (den adm) k) -> ~ obst_region ob x /\ ~ obst_region ob xg)).
  Proof.
    intros Ex Eg (W & kp & adm & ar & ag & hull & ob & A1 & A2 & A3 & A4 & A5 & A6 & A7 & A8 & _).
    destruct kp as [[p1 p2] p3]. exists ob, p1, p2, p3, adm.
    pose proof (fun p => region_iff cl (p1, p2, p3) hull ob p W A6 A8) as Ri.
    split; [exact A7|]. split; [exact A1|]. split; [exact A2|]. split; [|split; [apply mean_in_triangle|split]].
    - destruct A8 as [(o & _ & _ & ->)|(i & ->)]; reflexivity.
    - intros o p Ho Hp. apply Ri. exists o. auto.
    - intros Tg0. assert (Tg : forall o k, In o (c_obstacles cl) -> In k [p1; p2; p3] -> tangents_of (ob_tangent_points M o) (body o) k) by (intros o z Ho; apply (Tg0 o Ho)).
      assert (Hl : forall o, In o (c_obstacles cl) -> exists pts, hull_points (ob_tangent_points M o) [p1; p2; p3] unique pts /\
                   forall q, in_hull pts q <-> exists g, ob_convex_hull M o (p1, p2, p3) = Val g /\ den g q).
      { intros o Ho. destruct (hull_pieces _ _ _ W A6 o Ho) as (g & Eg' & _). destruct (proj1 (Tg0 o Ho) g Eg') as (pts & Hp & Hd).
        exists pts. split; [exact Hp|]. intros q. rewrite <- Hd. split; [eauto|]. intros (g' & E' & Hq). rewrite Eg' in E'. injection E' as <-. exact Hq. }
      assert (L3 : (1 <= length [p1; p2; p3])%nat) by (cbn; lia).
      split.
      + intros kk Hk p r Hp Sg. apply Ri in Hp as (o & Ho & Hp). destruct (Hl o Ho) as (pts & Hpts & Hq).
        destruct (co_convex obstacles o (W o Ho)) as (_ & _ & Cv).
        destruct (C62_starshaped (ob_tangent_points M o) (body o) [p1; p2; p3] unique Cv (fun z Hz => Tg o z Ho Hz) unique_ok L3) as (pts' & Hpts' & _ & _ & _ & St).
        assert (pts' = pts) as ->. { destruct Hpts as (t & T1 & ->), Hpts' as (t' & T1' & ->). rewrite T1 in T1'. injection T1' as <-. reflexivity. }
        apply Ri. exists o. split; [exact Ho|]. rewrite <- Hq. apply (St kk Hk p r); [rewrite Hq; exact Hp|exact Sg].
      + intros Gx Gg Int.
        assert (Out : forall at_ d ar', at_ = x \/ at_ = xg -> entries at_ d -> general_directions (directions_at at_ (c_obstacles cl)) ->
                  cones_polygon M Sh op d (c_obstacles cl) = Val ar' -> (forall q, den adm q -> den ar' q) -> ~ obst_region ob at_).
        { intros at_ d ar' Ha En Gd Cp Sub Hp. apply Ri in Hp as (o & Ho & Hp). destruct (Hl o Ho) as (pts & Hpts & Hq). rewrite <- Hq in Hp.
          destruct (co_convex obstacles o (W o Ho)) as (_ & _ & Cv).
          assert (Nb : ~ body o at_).
          { pose proof Cp as Cp'. unfold cones_polygon in Cp'. obinv Cp'. apply omap_in in E. destruct (Forall2_left _ _ _ o E Ho) as (cc & _ & Ecc).
            apply (cone_shape at_ o cc Ha (W o Ho) (entry_of at_ d o cc En (W o Ho) Ecc)). }
          revert Hp. apply (C63_x_stays_out (ob_tangent_points M o) (body o) [p1; p2; p3] unique Cv (fun z Hz => Tg o z Ho Hz) unique_ok L3 at_ pts Hpts Nb).
          - intros kk Hk p Hp Sg. apply (not_hidden at_ d _ ar' (den adm) kk Ha En W Gd Cp Sub (Int kk Hk) o Ho). exists p. auto.
          - destruct (co_tangents obstacles o at_ (W o Ho) Ha) as [[Hb _]|[_ (t1 & t2 & _ & (B1 & _))]]; eauto. }
        split; [apply (Out x (k_robot k) ar)|apply (Out xg (k_goal k) ag)]; auto; intros q Hq; apply (A5 q Hq).
  Qed.

  (** C100 *)
  Theorem C100_guarantee : forall fuel counter a, call op fuel counter x xg obs = Val a ->
    a_flag a = COMPLETE -> op_make_convex op = false -> uncut op a ->
    forall cl, In cl (a_clusters a) -> exists ob a1 a2 a3 adm,
      c_obstacle cl = Some ob /\ c_kernel_points cl = Some (a1, a2, a3) /\ c_admissible_kernel cl = Some adm /\
      obst_xr M ob = Val (triangle_mean (a1, a2, a3)) /\ in_hull [a1; a2; a3] (triangle_mean (a1, a2, a3)) /\
      (* the members are inside *)
      (forall o p, In o (c_obstacles cl) -> body o p -> obst_region ob p) /\
      ((forall o, In o (c_obstacles cl) -> hull_right o a1 a2 a3 /\ forall k, In k [a1; a2; a3] -> tangents_of (ob_tangent_points M o) (body o) k) ->
       (* star-shaped from every point of the kernel triangle *)
       (forall k, in_hull [a1; a2; a3] k -> starshaped_from (obst_region ob) k) /\
       (* robot and goal are outside, when the kernel triangle lies inside the admissible kernel *)
       (general_directions (directions_at x (c_obstacles cl)) -> general_directions (directions_at xg (c_obstacles cl)) ->
        (forall k, in_hull [a1; a2; a3] k -> interior (den adm) k) -> ~ obst_region ob x /\ ~ obst_region ob xg)).
  Proof.
    intros fuel counter a H Fl Mc Un cl Hcl. destruct (answer_built fuel counter a H Fl Mc Un) as (k & Ex & Eg & Bl). apply (built_guarantee k cl Ex Eg (Bl cl Hcl)).
  Qed.

  (** the kernel triangle lies inside the admissible kernel, when the centre chosen for it is inside the selection set and shapely's
      distance to the outer boundary of a geometry is the radius of a disc within it (no holes) *)
  Theorem C100_inside : 0 <= op_epsilon op -> (forall g h p, den (sh_difference Sh g h) p -> den g p) ->
    (forall g p d, sh_exterior_distance Sh g p = Ret d -> 0 <= d) ->
    (forall g c d q, den g c -> outer_distance Sh g c d -> dist c q < d -> den g q) ->
    forall fuel counter a, call op fuel counter x xg obs = Val a -> a_flag a = COMPLETE -> op_make_convex op = false -> uncut op a ->
    forall cl a1 a2 a3 adm, In cl (a_clusters a) -> c_kernel_points cl = Some (a1, a2, a3) -> c_admissible_kernel cl = Some adm ->
    (forall tcss, selection_set M Sh adm (c_obstacles cl) (workspace op) = Val tcss ->
       den tcss (triangle_mean (a1, a2, a3)) /\ forall d, outer_distance Sh tcss (triangle_mean (a1, a2, a3)) d -> 0 < d) ->
    forall k, in_hull [a1; a2; a3] k -> interior (den adm) k.
  Proof.
    intros Ep Df Dp Disc fuel counter a H Fl Mc Un cl a1 a2 a3 adm Hcl Kp Ad Ctr k Hk.
    destruct (answer_built fuel counter a H Fl Mc Un) as (kk & _ & _ & Bl).
    destruct (Bl cl Hcl) as (_ & kp & adm' & _ & _ & _ & _ & A1 & A2 & _ & _ & _ & _ & _ & _ & prev & draws & timer & E).
    rewrite Kp in A1. injection A1 as <-. rewrite Ad in A2. injection A2 as <-.
    destruct (C74_kernel_points_partial Obs G M Sh adm (c_obstacles cl) x xg (op_epsilon op) prev (workspace op) draws timer a1 a2 a3 Ep Dp E) as (tcss & c & d & Es & Od & _ & _ & _ & Em & Dh & _).
    rewrite triangle_mean_mean, Em in Ctr. destruct (Ctr tcss Es) as [Dc Pos]. specialize (Pos d Od).
    assert (Near : dist c k < d). { apply (Dh (fun q => dist c q < d)); [rewrite dist_refl; lra|auto|exact Hk]. }
    exists (d - dist c k). split; [lra|]. intros q Hq.
    apply (C74_selection_in_admissible Obs G M Sh den adm (c_obstacles cl) (workspace op) tcss (fun g h p Hp => proj1 (fg_intersection geometry g h p Hp)) Df Es).
    apply (Disc tcss c d q Dc Od). unfold dist in *. replace (vsub c q) with (vadd (vsub c k) (vsub k q)) by (destruct c, k, q; unv; f_equal; ring).
    eapply Rle_lt_trans; [apply norm_triangle|lra].
  Qed.

  (** regions of different clusters have no point in common, when the polygons cover the obstacles *)
  Theorem C100_disjoint : (forall o p, In o obs -> body o p -> den (ob_polygon M o) p) -> (forall g h, sh_intersects Sh g h = false -> disjoint (den g) (den h)) ->
    forall fuel counter a, call op fuel counter x xg obs = Val a -> a_flag a = COMPLETE -> op_make_convex op = false -> uncut op a ->
    forall i j ci cj oi oj, i <> j -> nth_error (a_clusters a) i = Some ci -> nth_error (a_clusters a) j = Some cj ->
    c_obstacle ci = Some oi -> c_obstacle cj = Some oj -> disjoint (obst_region oi) (obst_region oj).
  Proof.
    intros Cover Meet fuel counter a H Fl Mc Un i j ci cj oi oj N Ei Ej Oi Oj.
    destruct (C67_complete_partial M Sh setl setl_ok symmetric op fuel counter x xg obs a H Fl Mc Un) as [_ Dj]. specialize (Dj i j ci cj oi oj N Ei Ej Oi Oj).
    assert (Sub : forall c ob, In c (a_clusters a) -> c_obstacle c = Some ob -> forall p, obst_region ob p -> den (obst_polygon M Sh ob) p).
    { intros c ob Hc Eo p Hp. destruct (answer_built fuel counter a H Fl Mc Un) as (k & _ & _ & Bl).
      destruct (Bl c Hc) as (W & kp & adm & ar & ag & hull & ob' & A1 & A2 & A3 & A4 & A5 & A6 & A7 & A8 & _).
      rewrite Eo in A7. injection A7 as <-. destruct A8 as [(o & E1 & _ & ->)|(id & ->)]; cbn [obst_region obst_polygon] in *.
      - apply Cover; [apply W; rewrite E1; left; reflexivity|exact Hp].
      - apply (fg_union geometry). destruct Hp as [(o & Ho & Hp)|(h & -> & Hp)].
        + exists (ob_polygon M o). split; [apply in_app_iff; left; apply in_map, Ho|apply Cover; auto].
        + exists h. split; [apply in_app_iff; right; left; reflexivity|exact Hp]. }
    intros p [P1 P2]. apply (Meet _ _ Dj p). split; [apply (Sub ci oi (nth_error_In _ _ Ei) Oi p P1)|apply (Sub cj oj (nth_error_In _ _ Ej) Oj p P2)].
  Qed.
End Guarantee.
Print Assumptions C100_guarantee.
Print Assumptions C100_inside.
Print Assumptions C100_disjoint.
