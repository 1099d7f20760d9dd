(** convex_hull: the whole result, and a run that never ends. *)
From Coq Require Import Reals Lra Psatz List Bool Arith Lia QArith Qreals.
From Verif Require Import Num Spec M_Cg M_Hull L_Geom L_Cg L_Hull.
Import ListNotations.
Open Scope R_scope.

Lemma fan S v0 : convex S -> S v0 -> forall t v1 q, t <> [] -> (forall v, In v (v1 :: t) -> S v) ->
  0 <= area2 v0 v1 q ->
  (forall a b, In (a, b) (combine (v1 :: t) (t ++ [v0])) -> 0 <= area2 a b q) ->
  (forall a b, In (a, b) (combine (v1 :: t) t) -> 0 < area2 a b v0) -> S q.
Proof.
  intros HS H0. induction t as [|v2 t IH]; intros v1 q Ht Hm Hq Hed Hp; [congruence|].
  assert (A : 0 <= area2 v1 v2 q) by (apply Hed; simpl; auto).
  assert (B : 0 < area2 v0 v1 v2) by (rewrite <- area2_cyc; apply Hp; simpl; auto).
  assert (Tri : area2 v0 v2 q <= 0 -> S q).
  { intros C. apply (in_triangle v0 v1 v2 q); auto; try (apply Hm; simpl; auto).
    rewrite area2_cyc in B. replace (area2 v2 v0 q) with (- area2 v0 v2 q); [lra|].
    destruct v0, v2, q; unv; ring. }
  destruct (Rle_or_lt (area2 v0 v2 q) 0) as [C|C]; auto.
  destruct t as [|v3 t].
  - apply Tri. assert (D : 0 <= area2 v2 v0 q) by (apply Hed; simpl; auto).
    replace (area2 v0 v2 q) with (- area2 v2 v0 q); [lra|]. destruct v0, v2, q; unv; ring.
  - apply (IH v2); try lra; try discriminate.
    + intros v Hv. apply Hm. right. exact Hv.
    + intros a b Hab. apply Hed. right. exact Hab.
    + intros a b Hab. apply Hp. right. exact Hab.
Qed.

Lemma combine_map2 {A B C D} (f : A -> C) (g : B -> D) l : forall m,
  combine (map f l) (map g m) = map (fun p => (f (fst p), g (snd p))) (combine l m).
Proof. induction l as [|a l IH]; intros [|b m]; simpl; auto. f_equal. apply IH. Qed.
Lemma cyc_map {A B} (f : A -> B) l : cyc_edges (map f l) = map (fun p => (f (fst p), f (snd p))) (cyc_edges l).
Proof.
  destruct l as [|v t]; [reflexivity|]. cbn [cyc_edges map].
  change (f v :: map f t) with (map f (v :: t)). rewrite <- combine_map2, map_app. reflexivity.
Qed.
Lemma combine_firstn_in {A B} (l : list A) : forall (m k : list B) a b, In (a, b) (combine l m) -> In (a, b) (combine l (m ++ k)).
Proof. induction l as [|x l IH]; intros [|y m] k a b; simpl; try tauto. intros [E|H]; auto. Qed.
Lemma loop_mono points f : forall p l h, hull_loop (N := NumR) points f p l = Some h ->
  forall k, hull_loop (N := NumR) points (f + k) p l = Some h.
Proof.
  induction f as [|f IH]; intros p l h H k; [discriminate|]. cbn [hull_loop plus] in *. cbv zeta in *.
  destruct (Nat.eqb (next_q points p) l); auto.
  destruct (hull_loop points f (next_q points p) l) eqn:E; [|discriminate].
  rewrite (IH _ _ _ E). auto.
Qed.
Lemma NoDup_map_inj {A B} (f : A -> B) l :
  (forall x y, In x l -> In y l -> f x = f y -> x = y) -> NoDup l -> NoDup (map f l).
Proof.
  intros H N. induction N; simpl; constructor.
  - intros Hin. apply in_map_iff in Hin as (y & E & Hy). apply H in E; simpl; auto. congruence.
  - apply IHN. intros; apply H; simpl; auto.
Qed.

Lemma hull_single (p : Pt) fuel : (1 <= fuel)%nat -> convex_hull fuel [p] = Hull [p].
Proof.
  intros Hf. destruct fuel; [lia|]. unfold convex_hull. cbn [hull_loop]. unfold leftmost, next_q, wrap_step.
  cbn [length seq fold_left Nat.sub Nat.add]. change (1 mod 1)%nat with 0%nat.
  destruct (is_ccw (nthp [p] 0) (nthp [p] 0) (nthp [p] 0)); reflexivity.
Qed.

Lemma convex_hull_ne (points : list Pt) fuel : points <> [] ->
  convex_hull fuel points = match hull_loop points fuel (leftmost points) (leftmost points) with
                            | None => HullRunning | Some h => Hull h end.
Proof. destruct points; [congruence|reflexivity]. Qed.

Theorem hull_main (points : list Pt) : points <> [] -> general_position points ->
  exists h, (forall fuel, (length points <= fuel)%nat -> convex_hull fuel points = Hull h) /\
    (exists p rest, h = p :: rest /\ leftmost_topmost points p) /\
    NoDup h /\ incl h points /\
    (forall a b, In (a, b) (cyc_edges h) -> forall r, In r points -> r <> a -> r <> b -> TH < area2 a b r) /\
    ((3 <= length points)%nat -> forall q,
       ((forall a b, In (a, b) (cyc_edges h) -> 0 <= area2 a b q) <-> in_hull points q) /\
       (in_hull h q <-> in_hull points q)).
Proof.
  intros Hne GP.
  assert (Hn1 : (1 <= length points)%nat) by (destruct points; [congruence|simpl; lia]).
  destruct (leftmost_spec points Hn1) as [L1 L2].
  assert (LM : leftmost_topmost points (nthp points (leftmost points))).
  { split; [apply nth_In; auto|]. intros q Hq. apply (In_nth _ _ (n0, n0)) in Hq as (j & Hj & <-). apply L2; auto. }
  destruct (Nat.eq_dec (length points) 1) as [E1|E1].
  { destruct points as [|p [|]]; simpl in E1; try lia. exists [p]. split; [|split; [|split; [|split; [|split]]]].
    - intros. apply hull_single. simpl in *; lia.
    - exists p, []. split; auto.
    - constructor; [intros []|constructor].
    - intros x; auto.
    - intros a b [E|[]] r [<-|[]]; injection E; intros; congruence.
    - intros H3; simpl in H3; lia. }
  assert (Hn : (2 <= length points)%nat) by lia.
  pose proof (leftmost_extreme points Hn1) as Hext.
  set (l := leftmost points) in *.
  destruct (idx_loop_ok points GP l Hn (length points) l []) as (h & E & Hpath & Nd & Hh); auto.
  { constructor; [intros []|constructor]. }
  { intros x []. }
  { left; auto. }
  { intros x [<-|[]]; auto. }
  { simpl; lia. }
  rewrite app_nil_r in Nd. set (P := nthp points) in *.
  assert (Hhd : exists t, h = l :: t) by (inversion Hpath; subst; eauto). destruct Hhd as [t Eh].
  assert (Hnext : forall a b, In (a, b) (cyc_edges h) -> b = next_q points a).
  { intros a b Hab. apply (path_edges points l h l Hpath). rewrite Eh in *. exact Hab. }
  assert (Hedge : forall a b, In (a, b) (cyc_edges h) -> (a < length points)%nat /\ (b < length points)%nat /\
     forall i, (i < length points)%nat -> i <> a -> i <> b -> TH < area2 (P a) (P b) (P i)).
  { intros a b Hab. assert (Ha : In a h).
    { rewrite Eh in Hab. cbn [cyc_edges] in Hab. rewrite Eh. eapply in_combine_l, Hab. }
    destruct (Hh a Ha) as [A1 A2]. destruct (next_spec points GP a Hn A1 A2) as (X & Y & Z).
    rewrite (Hnext a b Hab). auto. }
  assert (Pin : forall i, (i < length points)%nat -> In (P i) points) by (intros; apply nth_In; auto).
  assert (Hincl : incl (map P h) points).
  { intros x Hx. apply in_map_iff in Hx as (i & <- & Hi). apply Pin, Hh, Hi. }
  assert (HE : forall a b, In (a, b) (cyc_edges (map P h)) -> exists i j, In (i, j) (cyc_edges h) /\ a = P i /\ b = P j).
  { intros a b Hab. rewrite cyc_map in Hab. apply in_map_iff in Hab as ((i & j) & Eij & Hij).
    cbn [fst snd] in Eij. injection Eij; intros; subst. eauto. }
  exists (map P h). split; [|split; [|split; [|split; [|split]]]]; auto.
  - intros fuel Hf. rewrite convex_hull_ne by auto.
    assert (HL : hull_loop (N := NumR) points (length points) l l = Some (map P h)).
    { rewrite hull_idx. rewrite E. reflexivity. }
    replace fuel with (length points + (fuel - length points))%nat by (clear - Hf; lia).
    fold l. rewrite (loop_mono _ _ _ _ _ HL). reflexivity.
  - exists (P l), (map P t). rewrite Eh. split; auto.
  - apply NoDup_map_inj; auto. intros x y Hx Hy. apply (P_inj points GP); apply Hh; auto.
  - intros a b Hab r Hr Ra Rb. destruct (HE a b Hab) as (i & j & Hij & -> & ->).
    destruct (Hedge i j Hij) as (I1 & I2 & I3).
    apply (In_nth _ _ (n0, n0)) in Hr as (k & Hk & Ek). change (P k = r) in Ek. subst r.
    apply I3; auto; intros ->; auto.
  - intros H3 q.
    (* the hull has at least three vertices *)
    assert (Hedge' : forall a b, In (a, b) (cyc_edges (map P h)) -> forall r, In r points -> 0 <= area2 a b r).
    { intros a b Hab r Hr. destruct (HE a b Hab) as (i & j & Hij & -> & ->).
      destruct (Hedge i j Hij) as (I1 & I2 & I3).
      apply (In_nth _ _ (n0, n0)) in Hr as (k & Hk & Ek). change (P k = r) in Ek. subst r.
      destruct (Nat.eq_dec k i) as [->|Ki]; [right; destruct (P i), (P j); unv; ring|].
      destruct (Nat.eq_dec k j) as [->|Kj]; [right; destruct (P i), (P j); unv; ring|].
      pose proof (I3 k Hk Ki Kj). pose proof TH_pos. lra. }
    assert (HF : (forall a b, In (a, b) (cyc_edges (map P h)) -> 0 <= area2 a b q) -> in_hull (map P h) q).
    { intros HQ. destruct (next_spec points GP l Hn L1 Hext) as (X & Y & Z).
      destruct t as [|v1 t].
      { exfalso. rewrite Eh in Hnext. specialize (Hnext l l (or_introl eq_refl)). auto. }
      destruct t as [|v2 t].
      { exfalso. assert (exists k, (k < length points)%nat /\ k <> l /\ k <> v1) as (k & K1 & K2 & K3).
        { destruct (Nat.eq_dec 0 l), (Nat.eq_dec 0 v1), (Nat.eq_dec 1 l), (Nat.eq_dec 1 v1), (Nat.eq_dec 2 l), (Nat.eq_dec 2 v1);
            first [exists 0%nat; lia | exists 1%nat; lia | exists 2%nat; lia | lia]. }
        rewrite Eh in Hedge. destruct (Hedge l v1 (or_introl eq_refl)) as (_ & _ & W1).
        destruct (Hedge v1 l (or_intror (or_introl eq_refl))) as (_ & _ & W2).
        pose proof (W1 k K1 K2 K3). pose proof (W2 k K1 K3 K2). pose proof TH_pos.
        replace (area2 (P v1) (P l) (P k)) with (- area2 (P l) (P v1) (P k)) in * by (destruct (P v1), (P l), (P k); unv; ring).
        lra. }
      apply (fan (in_hull (map P h)) (P l)) with (t := map P (v2 :: t)) (v1 := P v1).
      - apply in_hull_convex.
      - apply in_hull_mem. rewrite Eh. left; auto.
      - discriminate.
      - intros v Hv. apply in_hull_mem. rewrite Eh. right. exact Hv.
      - apply HQ. rewrite Eh. left. reflexivity.
      - intros a b Hab. apply HQ. rewrite Eh. right. exact Hab.
      - intros a b Hab. change (P v1 :: map P (v2 :: t)) with (map P (v1 :: v2 :: t)) in Hab.
        rewrite combine_map2 in Hab. apply in_map_iff in Hab as ((i & j) & Eij & Hij). cbn [fst snd] in Eij.
        injection Eij; intros; subst a b.
        assert (Hij' : In (i, j) (cyc_edges h)).
        { rewrite Eh. right. change ((v2 :: t) ++ [l]) with ((v2 :: t) ++ [l]).
          exact (combine_firstn_in (v1 :: v2 :: t) (v2 :: t) [l] i j Hij). }
        destruct (Hedge i j Hij') as (I1 & I2 & I3).
        pose proof TH_pos. apply Rlt_trans with TH; auto. rewrite Eh in Nd. apply NoDup_cons_iff in Nd as [Nl _].
        apply I3; auto.
        + intros <-. apply Nl. eapply in_combine_l, Hij.
        + intros <-. apply Nl. right. eapply in_combine_r, Hij. }
    assert (HB : in_hull points q -> forall a b, In (a, b) (cyc_edges (map P h)) -> 0 <= area2 a b q).
    { intros HQ a b Hab. apply (area_hull a b points); auto. }
    assert (HC : in_hull (map P h) q -> in_hull points q) by (apply in_hull_sub; apply Hincl).
    split; split; auto.
Qed.

(** *** Duplicated points *)
Definition dup_q : list (Q * Q) := [(1, 0); (0, 0); (1, 1); (0, 0)]%Q.
Definition dup : list Pt := [(1, 0); (0, 0); (1, 1); (0, 0)].
Lemma dup_map : dup = map q2p dup_q.
Proof. unfold dup, dup_q, q2p. cbn [map fst snd]. rewrite Num.Q2R_0, Num.Q2R_1. reflexivity. Qed.
Lemma nthp_q2p l i : nthp (map q2p l) i = q2p (nthp l i).
Proof.
  unfold nthp. rewrite <- (map_nth q2p). reflexivity.
Qed.
Lemma fold_ext {A B} (f g : A -> B -> A) : (forall a b, f a b = g a b) -> forall l a, fold_left f l a = fold_left g l a.
Proof. intros H. induction l as [|b l IH]; intros a; cbn [fold_left]; [reflexivity|]. rewrite H. apply IH. Qed.
Lemma next_q_q2p l p : next_q (map q2p l) p = next_q l p.
Proof.
  unfold next_q. rewrite map_length. apply fold_ext. intros a b.
  unfold wrap_step. rewrite !nthp_q2p, q2r_is_ccw. reflexivity.
Qed.
Lemma leftmost_q2p l : leftmost (map q2p l) = leftmost l.
Proof.
  unfold leftmost. rewrite map_length. apply fold_ext. intros a b.
  unfold leftmost_step. rewrite !nthp_q2p. unfold q2p; cbn [fst snd].
  rewrite <- !transfer_ltb, <- !transfer_eqb. reflexivity.
Qed.
Lemma dup_next : next_q dup 1 = 0%nat /\ next_q dup 0 = 2%nat /\ next_q dup 2 = 3%nat /\ next_q dup 3 = 0%nat /\ leftmost dup = 1%nat.
Proof. rewrite dup_map, !next_q_q2p, leftmost_q2p. vm_compute. auto. Qed.
Lemma dup_loop : forall fuel, hull_loop (N := NumR) dup fuel 0 1 = None /\ hull_loop (N := NumR) dup fuel 2 1 = None /\ hull_loop (N := NumR) dup fuel 3 1 = None.
Proof.
  destruct dup_next as (A & B & C & D & _).
  induction fuel as [|f (I0 & I2 & I3)]; [auto|].
  cbn [hull_loop]. cbv zeta. rewrite B, C, D, I0, I2, I3. auto.
Qed.
Lemma w_C14 : forall fuel, convex_hull fuel dup = HullRunning.
Proof.
  intros fuel. unfold convex_hull. change dup with dup. destruct dup_next as (A & B & C & D & E).
  rewrite E. unfold dup at 1. destruct fuel as [|f]; [reflexivity|]. cbn [hull_loop]. cbv zeta. rewrite A. cbn [Nat.eqb].
  destruct (dup_loop f) as [-> _]. reflexivity.
Qed.
Lemma w_C13 : general_position [(0, 0); (2, 0); (0, 2); (1/2, 1/2)].
Proof.
  split.
  - repeat constructor; simpl; intuition; match goal with H : (_, _) = (_, _) |- _ => injection H; intros; lra end.
  - intros a b c Ha Hb Hc. simpl in Ha, Hb, Hc. unfold TH.
    destruct Ha as [<-|[<-|[<-|[<-|[]]]]]; destruct Hb as [<-|[<-|[<-|[<-|[]]]]]; intros Hab; try congruence;
    destruct Hc as [<-|[<-|[<-|[<-|[]]]]]; intros Hbc Hac; try congruence;
    unv; match goal with |- _ < Rabs ?e => destruct (Rcase_abs e) as [K|K]; [rewrite (Rabs_left e K) | rewrite (Rabs_right e K)]; lra end.
Qed.
