(** Properties C61, C62, C63: admissible_kernel and the star-shaped hull of a convex obstacle.
    An obstacle is a region together with its tangent_points; [tangents_of] says what tangent_points has to deliver.
    It is proved for Ellipse (C43) and convex polygons (C50). *)
From Coq Require Import Reals Lra Psatz List Bool Arith Lia.
From Verif Require Import Num Spec M_Cg M_Hull M_Motion M_Obstacle M_Ellipse M_Polygon M_StarHull L_Geom L_Cg L_Obstacle L_Ellipse L_Hull L_HullDisjoint P_Hull P_Ellipse P_Polygon.
Import ListNotations.
Local Open Scope R_scope.

(** *** C61 *)
(* every direction between the tangents meets the obstacle *)
Lemma between_tangents x t1 t2 v : area2 x t1 t2 < 0 -> area2 x t1 v < 0 -> 0 < area2 x t2 v ->
  exists u lam, 0 <= u <= 1 /\ 0 < lam /\ vsub v x = smul lam (vsub (along t1 t2 u) x).
Proof.
  intros A B C. set (D := - area2 x t1 t2). set (al := area2 x t2 v / D). set (be := - area2 x t1 v / D).
  assert (HD : 0 < D) by (unfold D; lra). assert (Ha : 0 < al) by (apply Rmult_lt_0_compat; [exact C|apply Rinv_0_lt_compat, HD]).
  assert (Hb : 0 < be) by (apply Rmult_lt_0_compat; [lra|apply Rinv_0_lt_compat, HD]).
  exists (be / (al + be)), (al + be). split; [|split; [lra|]].
  - split; [left; apply Rmult_lt_0_compat; [lra|apply Rinv_0_lt_compat; lra]|]. apply Rmult_le_reg_r with (al + be); [lra|]. replace (be / (al + be) * (al + be)) with be by (field; lra). lra.
  - assert (E : vsub v x = vadd (smul al (vsub t1 x)) (smul be (vsub t2 x))).
    { unfold al, be. destruct x as [x1 x2], t1 as [a b], t2 as [c d], v as [v1 v2]. unfold D in *. unv. f_equal; field; lra. }
    rewrite E. clearbody al be. destruct x as [x1 x2], t1 as [a b], t2 as [c d]. unv. f_equal; field; lra.
Qed.
Lemma blocked_side x k o a : on_seg k o x -> x <> o -> exists lam, 0 <= lam /\ area2 x a k = - lam * area2 x a o.
Proof.
  intros (t & T & E) N. destruct (Req_dec t 1) as [->|N1].
  - exfalso. apply N. rewrite E. destruct k, o. unv. f_equal; ring.
  - exists (t / (1 - t)). split; [apply Rmult_le_pos; [lra|left; apply Rinv_0_lt_compat; lra]|]. rewrite E. destruct k, o, a. unv. field. lra.
Qed.
Theorem C61_admissible_kernel : forall (tangent_points : Pt -> res (list Pt)) (O : region) x, convex O -> ~ O x ->
  (tangent_points x = Ret [] -> admissible_kernel tangent_points x = Ret None) /\
  (forall t1 t2, tangent_points x = Ret [t1; t2] -> tangent_pair O x t1 t2 ->
   exists c, admissible_kernel tangent_points x = Ret (Some c) /\
     (* a rejected point sees x in front of the obstacle *)
     (forall k, point_in_cone c k = false -> exists o, O o /\ on_seg k o x) /\
     (* an accepted one does not, unless it is within the tolerance of one of the two tangents *)
     (forall k, point_in_cone c k = true -> TH < Rabs (area2 x t1 k) -> TH < Rabs (area2 x t2 k) -> forall o, O o -> ~ on_seg k o x)).
Proof.
  intros tp O x Cv Nx. split; [intros E; unfold admissible_kernel; rewrite E; reflexivity|]. intros t1 t2 E (O1 & O2 & T & B).
  assert (S1 : forall k, area2 x (padd x (psub x t1)) k = - area2 x t1 k) by (intros [k1 k2]; destruct x, t1; unfold padd, psub; nR; unv; ring).
  assert (S2 : forall k, area2 x (padd x (psub x t2)) k = - area2 x t2 k) by (intros [k1 k2]; destruct x, t2; unfold padd, psub; nR; unv; ring).
  assert (Nc : is_ccw (n0, n0) (psub x t1) (psub x t2) = false).
  { destruct (is_ccw (n0, n0) (psub x t1) (psub x t2)) eqn:Q; [exfalso|reflexivity]. apply is_ccw_iff in Q. pose proof TH_pos.
    replace (area2 (n0, n0) (psub x t1) (psub x t2)) with (area2 x t1 t2) in Q; [lra|]. unfold n0, psub; nR. rewrite Num.Q2R_0. destruct x, t1, t2. unv. ring. }
  exists (Cone x (psub x t1) (psub x t2)). split; [unfold admissible_kernel; rewrite E; reflexivity|].
  assert (P : forall k, point_in_cone (Cone x (psub x t1) (psub x t2)) k = false <-> TH < area2 x t1 k /\ area2 x t2 k < - TH).
  { intros k. unfold point_in_cone. cbn [is_convex apex dir1 dir2 Cone]. rewrite Nc, negb_false_iff, andb_true_iff, is_ccw_iff, is_cw_iff, S1, S2. lra. }
  split.
  - intros k Hk. apply P in Hk as [K1 K2]. pose proof TH_pos.
    assert (M : forall a, area2 x a (vsub (smul 2 x) k) = - area2 x a k) by (intros [a b]; destruct x, k; unv; ring).
    destruct (between_tangents x t1 t2 (vsub (smul 2 x) k) T) as (u & lam & U & L & Ev); [rewrite M; lra|rewrite M; lra|].
    exists (along t1 t2 u). split; [apply (Cv t1 t2); [assumption|assumption|exists u; auto]|].
    exists (lam / (1 + lam)). split; [split; [apply Rmult_le_pos; [lra|left; apply Rinv_0_lt_compat; lra]|apply Rmult_le_reg_r with (1 + lam); [lra|]; replace (lam / (1 + lam) * (1 + lam)) with lam by (field; lra); lra]|].
    set (o := along t1 t2 u) in *. clearbody o. assert (Ek : k = vsub x (smul lam (vsub o x))) by (rewrite <- Ev; destruct x, k; unv; f_equal; ring).
    rewrite Ek. destruct x, o. unv. f_equal; field; lra.
  - intros k Hk A1 A2 o Ho Sg. destruct (B o Ho) as [B1 B2]. assert (N : x <> o) by (intros ->; contradiction).
    destruct (blocked_side x k o t1 Sg N) as (l1 & L1 & E1). destruct (blocked_side x k o t2 Sg N) as (l2 & L2 & E2).
    assert (0 <= area2 x t1 k) by (rewrite E1; nra). assert (area2 x t2 k <= 0) by (rewrite E2; nra).
    rewrite Rabs_right in A1 by lra. rewrite Rabs_left1 in A2 by lra. assert (point_in_cone (Cone x (psub x t1) (psub x t2)) k = false) by (apply P; lra). congruence.
Qed.
Print Assumptions C61_admissible_kernel.

(** *** C62 *)
(** what tangent_points has to deliver at [k]: two tangent points outside, nothing inside *)
Definition tangents_of (tangent_points : Pt -> res (list Pt)) (O : region) (k : Pt) : Prop :=
  (O k /\ tangent_points k = Ret []) \/ (~ O k /\ exists t1 t2, tangent_points k = Ret [t1; t2] /\ tangent_pair O k t1 t2).
Lemma all_tangents tp O : forall K, (forall k, In k K -> tangents_of tp O k) ->
  exists tps, all_tangent_points tp K = Ret tps /\ (forall t, In t tps -> O t) /\
    (forall k, In k K -> O k \/ exists t1 t2, In t1 tps /\ In t2 tps /\ tangent_pair O k t1 t2) /\
    (tps = [] -> forall k, In k K -> O k) /\
    (tps <> [] -> exists k t1 t2, In k K /\ ~ O k /\ In t1 tps /\ In t2 tps /\ tangent_pair O k t1 t2).
Proof.
  induction K as [|k K IH]; intros H; [exists []; repeat split; intros; try contradiction; congruence|].
  destruct IH as (tps & E & A & B & C & D); [intros; apply H; right; assumption|]. cbn [all_tangent_points].
  destruct (H k (or_introl eq_refl)) as [[Ok Ek]|(Nk & t1 & t2 & Ek & T)]; rewrite Ek, E; cbn [bind app].
  - exists tps. split; [reflexivity|]. split; [exact A|]. split.
    + intros k' [<-|Hk]; [left; exact Ok|apply (B k' Hk)].
    + split; [intros Z k' [<-|Hk]; [exact Ok|apply (C Z k' Hk)]|]. intros Z. destruct (D Z) as (k' & t1 & t2 & Hk & Q). exists k', t1, t2. split; [right; exact Hk|exact Q].
  - exists (t1 :: t2 :: tps). split; [reflexivity|]. pose proof T as (O1 & O2 & _). split; [intros t [<-|[<-|Ht]]; auto|]. split; [|split; [discriminate|intros _; exists k, t1, t2; repeat split; try apply T; cbn; auto]].
    intros k' [<-|Hk]; [right; exists t1, t2; repeat split; try apply T; cbn; auto|]. destruct (B k' Hk) as [|(s1 & s2 & S1 & S2 & S)]; [auto|]. right. exists s1, s2. repeat split; try apply S; cbn; auto.
Qed.
(* the segment from k to a point of the obstacle stays in the triangle k t1 t2 until it is inside the obstacle *)
Lemma reach O (H : region) k t1 t2 p r : convex O -> convex H -> H k -> H t1 -> H t2 -> tangent_pair O k t1 t2 -> O p -> on_seg k p r -> O r \/ H r.
Proof.
  intros CO CH Hk H1 H2 (O1 & O2 & T & B) Hp Sg. destruct (B p Hp) as [B1 B2].
  set (D := - area2 k t1 t2). set (al := area2 k t2 p / D). set (be := - area2 k t1 p / D). assert (HD : 0 < D) by (unfold D; lra).
  assert (Ha : 0 <= al) by (apply Rmult_le_pos; [exact B2|left; apply Rinv_0_lt_compat, HD]). assert (Hb : 0 <= be) by (apply Rmult_le_pos; [lra|left; apply Rinv_0_lt_compat, HD]).
  assert (E : p = vadd (smul (1 - al - be) k) (vadd (smul al t1) (smul be t2))).
  { unfold al, be. destruct k as [x1 x2], t1 as [a b], t2 as [c d], p as [v1 v2]. unfold D in *. unv. f_equal; field; lra. }
  destruct Sg as (s & S & ->). clearbody al be. clear D HD B B1 B2 T.
  destruct (Rle_dec (s * (al + be)) 1) as [L|L].
  - right. replace (along k p s) with (vadd (smul (1 - s * (al + be)) k) (vadd (smul (s * al) t1) (smul (s * be) t2))) by (rewrite E; destruct k, t1, t2; unv; f_equal; ring).
    apply convex_triangle; auto; nra.
  - left. assert (Q : 1 < al + be) by nra. set (c := along t1 t2 (be / (al + be))).
    assert (Oc : O c). { apply (CO t1 t2); auto. exists (be / (al + be)). split; [|reflexivity]. split; [apply Rmult_le_pos; [lra|left; apply Rinv_0_lt_compat; lra]|]. apply Rmult_le_reg_r with (al + be); [lra|]. replace (be / (al + be) * (al + be)) with be by (field; lra). lra. }
    apply (CO c p); auto. exists ((s * (al + be) - 1) / (al + be - 1)). split.
    + split; [apply Rmult_le_pos; [nra|left; apply Rinv_0_lt_compat; lra]|]. apply Rmult_le_reg_r with (al + be - 1); [lra|]. replace ((s * (al + be) - 1) / (al + be - 1) * (al + be - 1)) with (s * (al + be) - 1) by (field; lra). nra.
    + unfold c. rewrite E. destruct k, t1, t2. unv. f_equal; field; lra.
Qed.
(** the points a set is star-shaped from form a convex set *)
Lemma kernel_convex (U : region) : convex (fun k => starshaped_from U k).
Proof.
  intros k1 k2 k S1 S2 (u & Hu & ->) p q Hp (s & Hs & ->). set (m := (1 - s) * u + s).
  assert (0 <= m <= 1) by (unfold m; nra). destruct (Req_dec m 0) as [Z|Z].
  - assert (s = 0) by (unfold m in Z; nra). subst s. assert (u = 0) by (unfold m in Z; lra). subst u. apply (S1 p); [exact Hp|]. exists 0. split; [lra|]. destruct k1, k2, p. unv. f_equal; ring.
  - assert (Hr : U (along k2 p (s / m))).
    { apply (S2 p); [exact Hp|]. exists (s / m). split; [|reflexivity]. split; [apply Rmult_le_pos; [lra|left; apply Rinv_0_lt_compat; lra]|]. apply Rmult_le_reg_r with m; [lra|]. replace (s / m * m) with s by (field; lra). unfold m. nra. }
    apply (S1 _ _ Hr). exists m. split; [lra|]. unfold m in *. destruct k1, k2, p. unv. f_equal; field; lra.
Qed.
(** the union of the segments between two convex sets is convex *)
Lemma join_convex (A B : region) : convex A -> convex B -> convex (fun x => exists a b, A a /\ B b /\ on_seg a b x).
Proof.
  intros CA CB p q r (a1 & b1 & A1 & B1 & (s1 & S1 & ->)) (a2 & b2 & A2 & B2 & (s2 & S2 & ->)) (t & T & ->).
  (* weights of a1, a2, b1, b2 *)
  set (s := (1 - t) * s1 + t * s2). assert (0 <= s <= 1) by (unfold s; nra).
  assert (exists a, A a /\ smul (1 - s) a = vadd (smul ((1 - t) * (1 - s1)) a1) (smul (t * (1 - s2)) a2)) as (a & Ha & Ea).
  { destruct (Req_dec (1 - s) 0) as [Z|Z].
    - exists a1. split; [exact A1|]. assert ((1 - t) * (1 - s1) = 0) as -> by (unfold s in Z; nra). assert (t * (1 - s2) = 0) as -> by (unfold s in Z; nra). rewrite Z. destruct a1, a2. unv. f_equal; ring.
    - exists (along a1 a2 (t * (1 - s2) / (1 - s))). split.
      + apply (CA a1 a2); auto. exists (t * (1 - s2) / (1 - s)). split; [|reflexivity]. split; [apply Rmult_le_pos; [nra|left; apply Rinv_0_lt_compat; lra]|]. apply Rmult_le_reg_r with (1 - s); [lra|]. replace (t * (1 - s2) / (1 - s) * (1 - s)) with (t * (1 - s2)) by (field; lra). unfold s. nra.
      + unfold s in *. destruct a1, a2. unv. f_equal; field; lra. }
  assert (exists b, B b /\ smul s b = vadd (smul ((1 - t) * s1) b1) (smul (t * s2) b2)) as (b & Hb & Eb).
  { destruct (Req_dec s 0) as [Z|Z].
    - exists b1. split; [exact B1|]. assert ((1 - t) * s1 = 0) as -> by (unfold s in Z; nra). assert (t * s2 = 0) as -> by (unfold s in Z; nra). rewrite Z. destruct b1, b2. unv. f_equal; ring.
    - exists (along b1 b2 (t * s2 / s)). split.
      + apply (CB b1 b2); auto. exists (t * s2 / s). split; [|reflexivity]. split; [apply Rmult_le_pos; [nra|left; apply Rinv_0_lt_compat; lra]|]. apply Rmult_le_reg_r with s; [lra|]. replace (t * s2 / s * s) with (t * s2) by (field; lra). unfold s. nra.
      + unfold s in *. destruct b1, b2. unv. f_equal; field; lra. }
  exists a, b. split; [exact Ha|]. split; [exact Hb|]. exists s. split; [assumption|].
  replace (along a b s) with (vadd (smul (1 - s) a) (smul s b)) by (destruct a, b; unv; f_equal; ring). rewrite Ea, Eb. destruct a1, a2, b1, b2. unv. f_equal; ring.
Qed.

Section Hull.
  Variables (tangent_points : Pt -> res (list Pt)) (O : region) (K : list Pt) (unique : list Pt -> list Pt).
  Hypothesis O_convex : convex O.
  Hypothesis tangents : forall k, In k K -> tangents_of tangent_points O k.
  Hypothesis unique_ok : forall l p, In p (unique l) <-> In p l.
  Hypothesis K_some : (1 <= length K)%nat.

  (** the vertices the hull is taken of *)
  Definition hull_points (h : list Pt) : Prop :=
    exists tps, all_tangent_points tangent_points K = Ret tps /\ h = match tps with [] => [] | _ => unique tps ++ K end.
  (** C62: obstacle and hull together are star-shaped from every point of the kernel triangle *)
  Theorem C62_starshaped : exists pts, hull_points pts /\
    (pts = [] <-> forall k, In k K -> O k) /\
    (pts <> [] -> general_position pts -> exists h, (forall fuel, (length pts <= fuel)%nat ->
        convex_kernel_starshaped_hull tangent_points unique fuel K = Ret (Hull h)) /\ (forall q, in_hull h q <-> in_hull pts q)) /\
    (pts = [] -> forall fuel, convex_kernel_starshaped_hull tangent_points unique fuel K = Ret (Hull [])) /\
    forall k, in_hull K k -> starshaped_from (fun q => O q \/ in_hull pts q) k.
  Proof.
    destruct (all_tangents tangent_points O K tangents) as (tps & E & A & B & C & D).
    set (pts := match tps with [] => [] | _ => unique tps ++ K end). exists pts. split; [exists tps; auto|].
    assert (Z : tps = [] <-> forall k, In k K -> O k).
    { split; [exact C|]. intros AllO. assert (Q : forall L, (forall k, In k L -> In k K) -> all_tangent_points tangent_points L = Ret []).
      { induction L as [|k L IH]; intros HL; [reflexivity|]. cbn [all_tangent_points]. destruct (tangents k (HL k (or_introl eq_refl))) as [[_ ->]|[N _]]; [|destruct (N (AllO k (HL k (or_introl eq_refl))))].
        rewrite IH by (intros; apply HL; right; assumption). reflexivity. }
      rewrite Q in E by auto. congruence. }
    assert (Ne : tps <> [] -> pts = unique tps ++ K) by (unfold pts; destruct tps; [congruence|reflexivity]).
    assert (Np : pts = [] <-> tps = []).
    { split; [|intros ->; reflexivity]. destruct tps as [|t tps]; [reflexivity|]. rewrite Ne by discriminate. intros H. apply app_eq_nil in H as [_ H]. rewrite H in K_some. cbn in K_some. lia. }
    split; [rewrite Np; exact Z|]. split; [|split].
    - intros N GP. destruct (C13_convex_hull_correct pts N GP) as (h & F & _ & _ & _ & _ & Hq).
      destruct D as (k0 & t1 & t2 & Hk0 & Nk & I1 & I2 & T0); [rewrite <- Np; exact N|].
      assert (L3 : (3 <= length pts)%nat).
      { apply (NoDup_incl_length (l := [k0; t1; t2])).
        - destruct T0 as (O1 & O2 & T & _). constructor; [intros [->|[->|[]]]; contradiction|]. constructor; [intros [->|[]]; destruct k0, t1; unv; lra|]. constructor; [intros []|constructor].
        - rewrite Ne by (rewrite <- Np; exact N). intros z [<-|[<-|[<-|[]]]]; apply in_app_iff; rewrite unique_ok; auto. }
      exists h. split; [|intros q; apply (Hq L3 q)]. intros fuel L. unfold convex_kernel_starshaped_hull. rewrite E. cbn [bind]. destruct tps as [|t tps]; [exfalso; apply N; reflexivity|]. rewrite <- (F fuel L). reflexivity.
    - intros Z0 fuel. apply Np in Z0. unfold convex_kernel_starshaped_hull. rewrite E, Z0. reflexivity.
    - intros k Hk. apply (hull_in_convex _ K k (kernel_convex _)); [|exact Hk]. clear k Hk. intros k Hk p r Hp Sg.
      destruct tps as [|t tps].
      + unfold pts in *. destruct Hp as [Hp|Hp]; [left; apply (O_convex k p); auto; apply C; auto|]. exfalso. destruct Hp as ([|] & L & _ & S1 & _); [cbn in S1; lra|discriminate].
      + specialize (Ne ltac:(discriminate)). assert (Mem : forall z, In z (t :: tps) \/ In z K -> in_hull pts z) by (intros z Hz; apply in_hull_mem; rewrite Ne; apply in_app_iff; rewrite unique_ok; exact Hz).
        destruct Hp as [Hp|Hp]; [|right; apply (in_hull_convex pts k p); auto].
        destruct (B k Hk) as [Ok|(t1 & t2 & I1 & I2 & T)]; [left; apply (O_convex k p); auto|].
        apply (reach O (in_hull pts) k t1 t2 p r O_convex (in_hull_convex pts)); auto.
  Qed.

  (** C63: as long as no point of the kernel triangle sees x in front of the obstacle, x stays outside *)
  Theorem C63_x_stays_out : forall x pts, hull_points pts -> ~ O x ->
    (forall k, in_hull K k -> forall o, O o -> ~ on_seg k o x) -> (exists o, O o) -> ~ (O x \/ in_hull pts x).
  Proof.
    intros x pts (tps & E & Ep) Nx Adm (o0 & Ho0) [Hx|Hx]; [contradiction|].
    destruct (all_tangents tangent_points O K tangents) as (tps' & E' & A & _). rewrite E in E'. injection E' as <-.
    assert (Q : exists k o, in_hull K k /\ O o /\ on_seg k o x).
    { apply (hull_in_convex (fun x => exists k o, in_hull K k /\ O o /\ on_seg k o x) pts); [|  |exact Hx].
      - intros p q r (k1 & o1 & K1 & P1 & S1) (k2 & o2 & K2 & P2 & S2) Sr. apply (join_convex (in_hull K) O (in_hull_convex K) O_convex p q r); eauto 10.
      - intros p Hp. destruct tps as [|t tps]; [subst pts; destruct Hp|]. rewrite Ep in Hp. apply in_app_iff in Hp as [Hp|Hp].
        + apply (proj1 (unique_ok _ _)) in Hp. destruct K as [|k K'] eqn:EK; [cbn in K_some; lia|]. exists k, p. split; [apply in_hull_mem; left; reflexivity|]. split; [apply A, Hp|]. exists 1. split; [lra|]. destruct k, p. unv. f_equal; ring.
        + exists p, o0. split; [apply in_hull_mem, Hp|]. split; [exact Ho0|]. exists 0. split; [lra|]. destruct p, o0. unv. f_equal; ring. }
    destruct Q as (k & o & Hk & Ho & Sg). apply (Adm k Hk o Ho Sg).
  Qed.
  (** ... in particular when the kernel triangle lies in the admissible kernel for x, outside the tolerance of the tangents *)
  Theorem C63_admissible : forall x pts t1 t2 c, hull_points pts -> ~ O x ->
    tangent_points x = Ret [t1; t2] -> tangent_pair O x t1 t2 -> admissible_kernel tangent_points x = Ret (Some c) ->
    (forall k, in_hull K k -> point_in_cone c k = true /\ TH < Rabs (area2 x t1 k) /\ TH < Rabs (area2 x t2 k)) ->
    ~ (O x \/ in_hull pts x).
  Proof.
    intros x pts t1 t2 c Hp Nx Et T Ec HK. apply C63_x_stays_out; [exact Hp|exact Nx| |exists t1; apply T].
    destruct (C61_admissible_kernel tangent_points O x O_convex Nx) as [_ Q]. destruct (Q t1 t2 Et T) as (c' & Ec' & _ & Acc). rewrite Ec in Ec'. injection Ec' as <-.
    intros k Hk. destruct (HK k Hk) as (P & A1 & A2). apply (Acc k P A1 A2).
  Qed.
End Hull.
Print Assumptions C62_starshaped.
Print Assumptions C63_x_stays_out.
Print Assumptions C63_admissible.

(** *** the tangent points of Ellipse and Polygon are of this kind *)
Lemma shown_along m f p q t : along (shown m f p) (shown m f q) t = shown m f (along p q t).
Proof. destruct m as [m|], f; try reflexivity. cbn [shown]. destruct p, q. unfold place, rotv. unv. f_equal; ring. Qed.
Lemma shown_inj m f p q : good f -> shown m f p = shown m f q -> p = q.
Proof. intros Hf E. pose proof (from_shown m f p Hf) as A. rewrite E, (from_shown m f q Hf) in A. congruence. Qed.
Definition placed (m : option mm) (f : frame) (S : region) : region := fun y => exists z, S z /\ y = shown m f z.
Lemma placed_convex m f S : convex S -> convex (placed m f S).
Proof. intros C p q r (p' & P & ->) (q' & Q & ->) (t & T & ->). exists (along p' q' t). split; [apply (C p' q'); auto; exists t; auto|apply shown_along]. Qed.

Theorem C62_ellipse_tangents : forall E x, 0 < fst (e_a E) -> 0 < snd (e_a E) ->
  (1 < ell_form (e_a E) x -> (1 / 100000 <= Rabs (fst (e_a E) ^ 2 - fst x ^ 2) \/ fst x ^ 2 = fst (e_a E) ^ 2) /\
     (TH * ell_form (e_a E) x) ^ 2 < 4 * (fst (e_a E) * snd (e_a E)) ^ 2 * (ell_form (e_a E) x - 1) ^ 3) ->
  convex (body E GLOBAL) /\ tangents_of (fun k => e_tangent_points E k GLOBAL GLOBAL) (body E GLOBAL) (shown (e_mm E) GLOBAL x).
Proof.
  intros E x A B H. assert (Gg : good GLOBAL) by (left; reflexivity). split; [apply (placed_convex _ _ (in_ellipse (e_a E))), ellipse_convex; assumption|].
  destruct (C43_tangent_points E x GLOBAL Gg A B) as [In Out]. destruct (Rle_dec (ell_form (e_a E) x) 1) as [L|L].
  - left. split; [exists x; auto|apply In, L].
  - right. split.
    + intros (z & Hz & Ez). apply shown_inj in Ez; [|exact Gg]. subst z. unfold in_ellipse in Hz. contradiction.
    + destruct (H ltac:(lra)) as [H1 H2]. destruct (Out ltac:(lra) H1) as (t1 & t2 & Et & _ & _ & _ & _ & _ & T). exists (shown (e_mm E) GLOBAL t1), (shown (e_mm E) GLOBAL t2). split; [exact Et|apply T, H2].
Qed.
Print Assumptions C62_ellipse_tangents.

Theorem C62_polygon_tangents : forall m (v : list Pt) x,
  (exists p q r, In p v /\ In q v /\ In r v /\ area2 p q r <> 0) -> convex_ccw v ->
  (in_hull v x /\ (forall a b, In (a, b) (cyc_edges v) -> 0 < area2 a b x)) \/ (exists a b, In (a, b) (cyc_edges v) /\ area2 a b x < 0) ->
  convex (placed m GLOBAL (in_hull v)) /\ tangents_of (fun k => p_tangent_points m v k GLOBAL GLOBAL) (placed m GLOBAL (in_hull v)) (shown m GLOBAL x).
Proof.
  intros m v x Nd Cc H. assert (Gg : good GLOBAL) by (left; reflexivity). split; [apply placed_convex, in_hull_convex|].
  assert (NE : v <> []) by (destruct Nd as (p & _ & _ & Hp & _); intros ->; destruct Hp).
  assert (Rot : forall a b c : Pt, area2 c a b = area2 a b c) by (intros [] [] []; unv; ring).
  destruct H as [[Hi He]|(a & b & Hab & Ho)].
  - left. split; [exists x; auto|]. apply C51_tangent_points_inside; auto. left. intros p q I. rewrite Rot. apply He, I.
  - right. set (n := (- (snd b - snd a), fst b - fst a) : Pt).
    assert (Sep : forall p, In p v -> 0 < dot n (vsub p x)).
    { intros p Hp. pose proof (Cc a b Hab p Hp) as Q. replace (dot n (vsub p x)) with (area2 a b p - area2 a b x); [lra|]. unfold n. destruct a, b, p, x. unv. ring. }
    assert (SepH : forall o, in_hull v o -> 0 < dot n (vsub o x)).
    { intros o Ho'. apply (hull_in_convex (fun o => 0 < dot n (vsub o x)) v); [|exact Sep|exact Ho']. clear. intros p q r P Q (t & T & ->).
      replace (dot n (vsub (along p q t) x)) with ((1 - t) * dot n (vsub p x) + t * dot n (vsub q x)) by (destruct n, p, q, x; unv; ring).
      destruct (Req_dec t 0) as [->|N]; [lra|]. destruct (Req_dec t 1) as [->|N1]; [lra|]. apply Rplus_lt_0_compat; apply Rmult_lt_0_compat; lra. }
    split.
    + intros (z & Hz & Ez). apply shown_inj in Ez; [|exact Gg]. subst z. specialize (SepH x Hz). destruct n, x. unv. lra.
    + destruct (C50_tangent_points m v x GLOBAL GLOBAL n Gg Gg NE Sep) as (t1 & t2 & Et & I1 & I2 & B & N).
      exists (shown m GLOBAL t1), (shown m GLOBAL t2). split; [exact Et|]. split; [exists t1; split; [apply in_hull_mem, I1|reflexivity]|]. split; [exists t2; split; [apply in_hull_mem, I2|reflexivity]|].
      split.
      * rewrite shown_area by exact Gg. destruct Nd as (p & q & r & Hp & Hq & Hr & Nz).
        (* one of the three pairs is not in line with x *)
        destruct (Req_dec (area2 x p q) 0) as [Z1|]; [|apply (N p q); auto]. destruct (Req_dec (area2 x q r) 0) as [Z2|]; [|apply (N q r); auto]. destruct (Req_dec (area2 x r p) 0) as [Z3|]; [|apply (N r p); auto].
        exfalso. apply Nz. replace (area2 p q r) with (area2 x p q + area2 x q r + area2 x r p) by (destruct x, p, q, r; unv; ring). lra.
      * intros o (z & Hz & ->). rewrite !shown_area by exact Gg. apply B, Hz.
Qed.
Print Assumptions C62_polygon_tangents.

(** *** examples: the unit square *)
Definition square : list Pt := [(0, 0); (1, 0); (1, 1); (0, 1)].
Definition square_tangents (k : Pt) : res (list Pt) := p_tangent_points None square k GLOBAL GLOBAL.
Definition square_body : region := placed None GLOBAL (in_hull square).
Lemma square_ccw : convex_ccw square.
Proof. intros a b H r Hr. cbn in H, Hr. repeat (destruct H as [H|H]; [injection H as <- <-; repeat (destruct Hr as [<-|Hr]; [unv; lra|]); destruct Hr|]). destruct H. Qed.
Lemma square_convex : convex square_body.
Proof. apply placed_convex, in_hull_convex. Qed.
Lemma square_right k : 1 < fst k -> tangents_of square_tangents square_body k /\ ~ square_body k.
Proof.
  intros H. assert (E : area2 (1, 0) (1, 1) k < 0) by (destruct k; unv; cbn [fst] in H; lra).
  destruct (C62_polygon_tangents None square k) as [_ T].
  - exists (0, 0), (1, 0), (1, 1). repeat split; [cbn; auto|cbn; auto|cbn; auto|unv; lra].
  - exact square_ccw.
  - right. exists (1, 0), (1, 1). split; [cbn; auto|exact E].
  - split; [exact T|]. intros (z & Hz & ->). apply (hull_in_convex (fun z => fst z <= 1)) in Hz; [cbn [shown] in H; lra| |].
    + intros p q r P Q (t & Ht & ->). destruct p as [p1 p2], q as [q1 q2]. unv. cbn [fst] in *. nra.
    + intros p Hp. cbn in Hp. repeat (destruct Hp as [<-|Hp]; [cbn; lra|]). destruct Hp.
Qed.
Lemma square_face k : 1 < fst k -> 0 < snd k < 1 -> square_tangents k = Ret [(1, 0); (1, 1)].
Proof.
  intros H1 H2. destruct (C50_tangent_points None square k GLOBAL GLOBAL (-1, 0)) as (t1 & t2 & E & I1 & I2 & B & _); [left; reflexivity|left; reflexivity|discriminate| |].
  - intros p Hp. destruct k. cbn [fst snd] in *. cbn in Hp. repeat (destruct Hp as [<-|Hp]; [unv; lra|]). destruct Hp.
  - unfold square_tangents. cbn [shown] in E. rewrite E. clear E. destruct (B (1, 0)) as [B1 B2]; [apply in_hull_mem; cbn; auto|]. destruct (B (1, 1)) as [B3 B4]; [apply in_hull_mem; cbn; auto|].
    destruct k as [k1 k2]. cbn [fst snd] in *. cbn in I1, I2.
    assert (t1 = (1, 0)). { destruct I1 as [<-|[<-|[<-|[<-|[]]]]]; [exfalso|reflexivity|exfalso|exfalso]; unv; nra. }
    assert (t2 = (1, 1)). { destruct I2 as [<-|[<-|[<-|[<-|[]]]]]; [exfalso|exfalso|reflexivity|exfalso]; unv; nra. }
    subst. reflexivity.
Qed.
Example C61_example : convex square_body /\ ~ square_body (3, 1 / 2) /\ square_tangents (3, 1 / 2) = Ret [(1, 0); (1, 1)] /\ tangent_pair square_body (3, 1 / 2) (1, 0) (1, 1) /\
  exists c, admissible_kernel square_tangents (3, 1 / 2) = Ret (Some c) /\ point_in_cone c (5, 1 / 2) = false /\ point_in_cone c (5, 4) = true.
Proof.
  destruct (square_right (3, 1 / 2)) as [T N]; [cbn; lra|]. pose proof (square_face (3, 1 / 2) ltac:(cbn; lra) ltac:(cbn; lra)) as E.
  split; [exact square_convex|]. split; [exact N|]. split; [exact E|]. destruct T as [[T _]|(_ & t1 & t2 & E' & T)]; [contradiction|]. rewrite E in E'. injection E' as <- <-. split; [exact T|].
  eexists. split; [unfold admissible_kernel; rewrite E; reflexivity|].
  assert (Nc : is_ccw (n0, n0) (psub (3, 1 / 2) (1, 0)) (psub (3, 1 / 2) (1, 1)) = false).
  { destruct (is_ccw _ _ _) eqn:Q; [exfalso|reflexivity]. apply is_ccw_iff in Q. pose proof TH_pos. revert Q. unfold n0, psub; nR. rewrite Num.Q2R_0. unv. lra. }
  unfold point_in_cone. cbn [is_convex apex dir1 dir2 Cone]. rewrite Nc, negb_false_iff, negb_true_iff, andb_true_iff, andb_false_iff. split.
  - rewrite is_ccw_iff, is_cw_iff. unfold padd, psub; nR. unv. unfold TH. lra.
  - right. apply not_true_iff_false. intros Q. apply is_cw_iff in Q. revert Q. unfold padd, psub; nR. unv. unfold TH. lra.
Qed.
Definition pt_eq_dec (p q : Pt) : {p = q} + {p <> q}.
Proof. destruct p as [a b], q as [c d]. destruct (Req_EM_T a c); [|right; congruence]. destruct (Req_EM_T b d); [left|right]; congruence. Defined.
Definition three : list Pt := [(3, 1 / 2); (4, 1 / 3); (3, 1 / 5)].
Example C62_example : convex square_body /\ (forall k, In k three -> tangents_of square_tangents square_body k /\ ~ square_body k) /\
  (forall l p, In p (nodup pt_eq_dec l) <-> In p l) /\
  exists pts, hull_points square_tangents three (nodup pt_eq_dec) pts /\ pts <> [] /\ general_position pts.
Proof.
  split; [exact square_convex|]. split; [intros k Hk; apply square_right; cbn in Hk; destruct Hk as [<-|[<-|[<-|[]]]]; cbn; lra|].
  split; [intros l p; apply nodup_In|].
  assert (E : all_tangent_points square_tangents three = Ret [(1, 0); (1, 1); (1, 0); (1, 1); (1, 0); (1, 1)]).
  { cbn [all_tangent_points three]. rewrite !square_face by (cbn; lra). reflexivity. }
  eexists. split; [eexists; split; [exact E|reflexivity]|]. set (l := nodup pt_eq_dec _).
  assert (M : forall p, In p l <-> p = (1, 0) \/ p = (1, 1)) by (intros p; unfold l; rewrite nodup_In; cbn; intuition auto).
  assert (ND : NoDup l) by apply NoDup_nodup. clearbody l. split; [destruct l; discriminate|]. split.
  - assert (D3 : NoDup three).
    { constructor; [intros [H|[H|[]]]; injection H; lra|]. constructor; [intros [H|[]]; injection H; lra|]. constructor; [intros []|constructor]. }
    clear - M ND D3. revert ND M. induction l as [|a l IH]; intros ND M; [exact D3|]. inversion ND; subst.
    assert (Q : forall l', NoDup l' -> (forall p, In p l' -> p = (1, 0) \/ p = (1, 1)) -> NoDup (l' ++ three)).
    { induction l' as [|b l' IH']; intros N' M'; [exact D3|]. inversion N'; subst. cbn. constructor.
      - intros Hin. apply in_app_iff in Hin as [Hin|Hin]; [contradiction|]. destruct (M' b (or_introl eq_refl)) as [->| ->]; cbn in Hin; destruct Hin as [H|[H|[H|[]]]]; injection H; lra.
      - apply IH'; [assumption|]. intros; apply M'; right; assumption. }
    apply Q; [constructor; assumption|]. intros p Hp. apply M, Hp.
  - assert (A : forall p, In p (l ++ three) -> In p [(1, 0); (1, 1); (3, 1 / 2); (4, 1 / 3); (3, 1 / 5)]).
    { intros p Hp. apply in_app_iff in Hp as [Hp|Hp]; [apply M in Hp; destruct Hp as [->| ->]; cbn; auto|]. cbn in *. tauto. }
    intros a b c Ha Hb Hc. apply A in Ha, Hb, Hc. clear - Ha Hb Hc.
    assert (Ab : forall z, TH < z \/ z < - TH -> TH < Rabs z) by (intros z Hz; unfold Rabs; destruct (Rcase_abs z); unfold TH in *; lra).
    intros N1 N2 N3. apply Ab. cbn in Ha, Hb, Hc.
    destruct Ha as [<-|[<-|[<-|[<-|[<-|[]]]]]], Hb as [<-|[<-|[<-|[<-|[<-|[]]]]]]; try congruence; destruct Hc as [<-|[<-|[<-|[<-|[<-|[]]]]]]; try congruence; unv; unfold TH; lra.
Qed.
(** the robot left of the square keeps clear of the hull *)
Example C63_example : ~ square_body (-1, 1 / 2) /\ (exists o, square_body o) /\ (forall k, in_hull three k -> forall o, square_body o -> ~ on_seg k o (-1, 1 / 2)).
Proof.
  assert (L : forall o, square_body o -> 0 <= fst o).
  { intros o (z & Hz & ->). cbn [shown]. apply (hull_in_convex (fun z => 0 <= fst z) square z); [|  |exact Hz].
    - intros p q r P Q (t & Ht & ->). destruct p, q. unv. cbn [fst] in *. nra.
    - intros p Hp. cbn in Hp. repeat (destruct Hp as [<-|Hp]; [cbn; lra|]). destruct Hp. }
  split; [intros H; apply L in H; cbn in H; lra|]. split; [exists (0, 0), (0, 0); split; [apply in_hull_mem; left; reflexivity|reflexivity]|].
  intros k Hk o Ho (t & Ht & E). apply L in Ho.
  assert (Kx : 0 <= fst k).
  { apply (hull_in_convex (fun z => 0 <= fst z) three k); [|  |exact Hk].
    - intros p q r P Q (s & Hs & ->). destruct p, q. unv. cbn [fst] in *. nra.
    - intros p Hp. cbn in Hp. repeat (destruct Hp as [<-|Hp]; [cbn; lra|]). destruct Hp. }
  destruct k as [k1 k2], o as [o1 o2]. unv. cbn [fst] in *. injection E as E1 _. nra.
Qed.
