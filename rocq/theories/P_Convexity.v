(** C106: is_convex and is_starshaped after dilated_obstacle. *)
From Coq Require Import Reals List Bool Arith Lia Lra.
From Verif Require Import Num Spec M_Cg M_Obstacle M_Polygon L_Geom P_Polygon M_Convexity.
Import ListNotations.
Open Scope R_scope.

(** the ring of the obstacle after a sequence of calls *)
Fixpoint ring_after (ring : list Pt) (l : list query) : list Pt :=
  match l with [] => ring | DilateTo r :: l => ring_after r l | _ :: l => ring_after ring l end.
(** the ring of the obstacle when it was last asked with success (is_convex or is_starshaped), if it was *)
Fixpoint asked_ring (ring : list Pt) (l : list query) : option (list Pt) :=
  match l with
  | [] => None
  | DilateTo r :: l => asked_ring r l
  | _ :: l => match check_convexity ring with Ret _ => Some ring | Exn _ => asked_ring ring l end
  end.

(** what is_convex has to answer: True for an ellipse, else the answer of Polygon._check_convexity for the ring (C52) *)
Definition due_answer (c : obs_class) (ring : list Pt) : res bool := match c with CEllipse => Ret true | _ => check_convexity ring end.

Section State.
  Variable c : obs_class.
  Definition consistent (s : shape_state) : Prop := (forall b, q_convex s = Some b -> check_for c (q_ring s) = Ret b) /\ (c <> CPolygon -> q_star s = Some true) /\ (c = CPolygon -> forall b, q_star s = Some b -> check_for c (q_ring s) = Ret b).
  Lemma new_consistent r : consistent (new_shape c r).
  Proof. unfold new_shape. split; [discriminate|]. split; destruct c; cbn; congruence. Qed.
  Lemma convex_ring s : q_ring (fst (ask_convex c s)) = q_ring s.
  Proof. unfold ask_convex. destruct (q_convex s); [reflexivity|]. destruct (check_for c (q_ring s)); reflexivity. Qed.
  Lemma star_ring s : q_ring (fst (ask_star c s)) = q_ring s.
  Proof. unfold ask_star. destruct (q_star s); [reflexivity|]. pose proof (convex_ring s) as H. destruct (ask_convex c s) as [s' [b|e]]; exact H. Qed.
  Lemma convex_answer s : consistent s -> snd (ask_convex c s) = check_for c (q_ring s) /\ consistent (fst (ask_convex c s)).
  Proof.
    intros (K1 & K2 & K3). unfold ask_convex. destruct (q_convex s) as [b|] eqn:E; cbn [fst snd].
    - split; [symmetry; apply K1; reflexivity|]. split; [intros b' H; apply K1; congruence|split; assumption].
    - destruct (check_for c (q_ring s)) as [b|e] eqn:F; cbn [fst snd]; (split; [reflexivity|]); [|split; [congruence|split; [assumption|]]; rewrite F; assumption].
      split; cbn [q_ring q_convex q_star]; [intros b' H; injection H as <-; exact F|]. split; [assumption|]. rewrite F. assumption.
  Qed.
  Lemma star_answer s : consistent s -> snd (ask_star c s) = (match c with CPolygon => check_for c (q_ring s) | _ => Ret true end) /\ consistent (fst (ask_star c s)).
  Proof.
    intros K. pose proof (convex_answer s K) as [A B]. pose proof (convex_ring s) as Q. pose proof K as (K1 & K2 & K3). unfold ask_star. destruct (q_star s) as [b|] eqn:E; cbn [fst snd].
    - split; [|exact K]. destruct c eqn:Ec; try (assert (b = true) by (assert (W : Some b = Some true) by (apply K2; discriminate); congruence); subst b; reflexivity). symmetry. apply K3; reflexivity.
    - assert (Ec : c = CPolygon) by (destruct c; [reflexivity|exfalso; assert (W : None = Some true) by (apply K2; discriminate); discriminate..]).
      destruct (ask_convex c s) as [s' [b|e]]; cbn [fst snd] in *; rewrite Ec in *; (split; [exact A|]); [|exact B].
      destruct B as (B1 & B2 & B3). split; cbn [q_ring q_convex q_star]; [exact B1|]. split; [congruence|]. intros _ b' H. injection H as <-. rewrite Q, Ec. symmetry. exact A.
  Qed.
End State.

(** without dilation every answer is the answer for the ring; star-shaped classes always answer true to is_starshaped *)
Definition asks (q : query) : Prop := match q with DilateTo _ => False | _ => True end.
Theorem C106_undilated : forall c ring l, Forall asks l -> let s := query_run c ring l in
  snd (ask_convex c s) = due_answer c ring /\ snd (ask_star c s) = match c with CPolygon => due_answer c ring | _ => Ret true end.
Proof.
  intros c ring l F. cbv zeta. change (due_answer c ring) with (check_for c ring). assert (K : consistent c (query_run c ring l) /\ q_ring (query_run c ring l) = ring).
  { unfold query_run. assert (G : forall l s, Forall asks l -> consistent c s -> consistent c (fold_left (query_step c) l s) /\ q_ring (fold_left (query_step c) l s) = q_ring s).
    { clear. induction l as [|q l IH]; intros s F K; [split; [exact K|reflexivity]|]. inversion_clear F as [|? ? Fq Fl]. cbn [fold_left]. destruct q; [| |destruct Fq]; cbn [query_step].
      - destruct (IH (fst (ask_convex c s)) Fl (proj2 (convex_answer c s K))) as [A B]. split; [exact A|]. rewrite B. apply convex_ring.
      - destruct (IH (fst (ask_star c s)) Fl (proj2 (star_answer c s K))) as [A B]. split; [exact A|]. rewrite B. apply star_ring. }
    apply (G l (new_shape c ring) F). apply new_consistent. }
  destruct K as [K Q]. rewrite <- Q at 2 4. split; [apply convex_answer, K|apply star_answer, K].
Qed.
Print Assumptions C106_undilated.

(** star-shaped polygons and ellipses: the answers are those for the present ring *)
Theorem C106_dilated_partial : forall c ring l, c = CStarPolygon \/ c = CEllipse -> let s := query_run c ring l in
  snd (ask_convex c s) = due_answer c (ring_after ring l) /\ snd (ask_star c s) = Ret true.
Proof.
  intros c ring l Hc. cbv zeta. change (due_answer c (ring_after ring l)) with (check_for c (ring_after ring l)). assert (K : consistent c (query_run c ring l) /\ q_ring (query_run c ring l) = ring_after ring l).
  { unfold query_run. assert (G : forall l s, consistent c s -> consistent c (fold_left (query_step c) l s) /\ q_ring (fold_left (query_step c) l s) = ring_after (q_ring s) l).
    { clear ring l. induction l as [|q l IH]; intros s K; [split; [exact K|reflexivity]|]. cbn [fold_left]. destruct q as [| |r]; cbn [query_step ring_after].
      - destruct (IH (fst (ask_convex c s)) (proj2 (convex_answer c s K))) as [A B]. split; [exact A|]. rewrite B, convex_ring. reflexivity.
      - destruct (IH (fst (ask_star c s)) (proj2 (star_answer c s K))) as [A B]. split; [exact A|]. rewrite B, star_ring. reflexivity.
      - assert (E : dilate c r s = new_shape c r) by (destruct Hc as [->| ->]; reflexivity). rewrite E. apply (IH (new_shape c r) (new_consistent c r)). }
    apply (G l (new_shape c ring)). apply new_consistent. }
  destruct K as [K Q]. rewrite <- Q. split; [apply convex_answer, K|]. destruct (star_answer c _ K) as [-> _]. destruct Hc as [->| ->]; reflexivity.
Qed.
Print Assumptions C106_dilated_partial.

(** plain polygons: is_convex answers for the ring for which it was first answered, whatever dilations came after *)
Theorem C106_polygon_partial : forall ring l, snd (ask_convex CPolygon (query_run CPolygon ring l)) =
  check_convexity (match asked_ring ring l with Some r => r | None => ring_after ring l end).
Proof.
  intros ring l. unfold query_run.
  assert (Kept : forall l s b, q_convex s = Some b -> q_convex (fold_left (query_step CPolygon) l s) = Some b).
  { clear. induction l as [|q l IH]; intros s b E; [exact E|]. cbn [fold_left]. apply IH. destruct q; cbn [query_step].
    - unfold ask_convex. rewrite E. exact E.
    - unfold ask_star. destruct (q_star s); [exact E|]. unfold ask_convex. rewrite E. exact E.
    - exact E. }
  assert (G : forall l s, q_convex s = None -> q_star s = None -> snd (ask_convex CPolygon (fold_left (query_step CPolygon) l s)) =
     check_convexity (match asked_ring (q_ring s) l with Some r => r | None => ring_after (q_ring s) l end)).
  { clear ring l. induction l as [|q l' IH]; intros s E1 E2.
    - cbn [fold_left asked_ring ring_after]. unfold ask_convex. rewrite E1. cbn [check_for]. destruct (check_convexity (q_ring s)); reflexivity.
    - cbn [fold_left]. destruct q as [| |r].
      + cbn [query_step asked_ring ring_after]. unfold ask_convex at 2. rewrite E1. cbn [check_for]. destruct (check_convexity (q_ring s)) as [b|e] eqn:C; cbn [fst]; [|apply IH; assumption].
        unfold ask_convex. rewrite (Kept l' (ShapeState (q_ring s) (Some b) (q_star s)) b eq_refl). cbn [snd]. symmetry. exact C.
      + cbn [query_step asked_ring ring_after]. unfold ask_star. rewrite E2. unfold ask_convex at 2. rewrite E1. cbn [check_for]. destruct (check_convexity (q_ring s)) as [b|e] eqn:C; cbn [fst]; [|apply IH; assumption].
        cbn [q_ring q_convex]. unfold ask_convex. rewrite (Kept l' (ShapeState (q_ring s) (Some b) (Some b)) b eq_refl). cbn [snd]. symmetry. exact C.
      + cbn [query_step asked_ring ring_after]. apply (IH (dilate CPolygon r s) E1 E2). }
  apply (G l (new_shape CPolygon ring) eq_refl eq_refl).
Qed.
Print Assumptions C106_polygon_partial.

(** an L-shaped polygon and what is left of it 1 inside its border: a square *)
Definition ell : list Pt := [(0, 0); (6, 0); (6, 1); (4, 1); (4, 4); (0, 4)].
Definition ell_region : region := fun p => (0 <= fst p <= 4 /\ 0 <= snd p <= 4) \/ (0 <= fst p <= 6 /\ 0 <= snd p <= 1).
Definition core : list Pt := [(1, 1); (3, 1); (3, 3); (1, 3)].
Definition core_region : region := fun p => 1 <= fst p <= 3 /\ 1 <= snd p <= 3.
(** the points whose open disc of radius [p] lies in the region: buffer(-p) *)
Definition shrunk (X : region) (p : R) : region := fun q => forall u, dist q u < p -> X u.
Lemma dist_lt (q u : Pt) : dist q u < 1 <-> (fst q - fst u) * (fst q - fst u) + (snd q - snd u) * (snd q - snd u) < 1.
Proof.
  unfold dist, norm, norm2, dot, vsub. cbn [fst snd]. set (t := (fst q - fst u) * (fst q - fst u) + (snd q - snd u) * (snd q - snd u)).
  assert (T : 0 <= t) by (unfold t; pose proof (Rle_0_sqr (fst q - fst u)) as A; pose proof (Rle_0_sqr (snd q - snd u)) as B; unfold Rsqr in A, B; lra). split; intros H.
  - pose proof (sqrt_sqrt t T) as E. pose proof (sqrt_pos t). nra.
  - rewrite <- sqrt_1. apply sqrt_lt_1_alt. lra.
Qed.
Lemma core_is_shrunk p : shrunk ell_region 1 p <-> core_region p.
Proof.
  destruct p as [x y]. unfold core_region. cbn [fst snd]. split.
  - intros H. assert (A : forall a b, (x - a) * (x - a) + (y - b) * (y - b) < 1 -> (0 <= a <= 4 /\ 0 <= b <= 4) \/ (0 <= a <= 6 /\ 0 <= b <= 1)) by (intros a b K; apply (H (a, b)), dist_lt; exact K).
    assert (B : (0 <= x <= 4 /\ 0 <= y <= 4) \/ (0 <= x <= 6 /\ 0 <= y <= 1)) by (apply A; lra).
    assert (X1 : 1 <= x). { apply Rnot_lt_le. intros L. destruct (A ((x - 1) / 2) y) as [K|K]; try lra. replace (x - (x - 1) / 2) with ((x + 1) / 2) by field. assert (0 <= x) by lra. nra. }
    assert (Y1 : 1 <= y). { apply Rnot_lt_le. intros L. destruct (A x ((y - 1) / 2)) as [K|K]; try lra. replace (y - (y - 1) / 2) with ((y + 1) / 2) by field. assert (0 <= y) by lra. nra. }
    assert (Y3 : y <= 3). { apply Rnot_lt_le. intros L. destruct (A x ((y + 5) / 2)) as [K|K]; try lra. replace (y - (y + 5) / 2) with (- ((5 - y) / 2)) by field. assert (y <= 4) by lra. nra. }
    assert (X3 : x <= 3).
    { apply Rnot_lt_le. intros L. destruct (Rle_lt_dec x 4) as [L4|L4].
      - set (t := (5 - x) / 2). assert (T : 1 / 2 <= t < 1) by (unfold t; lra). assert (Et : x + t > 4) by (unfold t; lra). destruct (A (x + t) (y + (1 - t) / 2)) as [K|K]; try lra.
        replace (x - (x + t)) with (- t) by ring. replace (y - (y + (1 - t) / 2)) with (- ((1 - t) / 2)) by ring. nra.
      - destruct (A x (y + 1 / 2)) as [K|K]; try lra. }
    lra.
  - intros [[X1 X2] [Y1 Y2]] [a b] D. apply dist_lt in D. cbn [fst snd] in *. left. unfold ell_region. cbn [fst snd].
    assert (S1 : (x - a) * (x - a) < 1) by (pose proof (Rle_0_sqr (y - b)) as Q; unfold Rsqr in Q; lra). assert (S2 : (y - b) * (y - b) < 1) by (pose proof (Rle_0_sqr (x - a)) as Q; unfold Rsqr in Q; lra).
    assert (M : forall t, t * t < 1 -> -1 < t < 1) by (intros t Ht; split; nra). apply M in S1. apply M in S2. lra.
Qed.
Ltac turns := unfold turn, ell, core, area2, cross, vsub; cbn; unfold TH, Rabs; destruct (Rcase_abs _); lra.
Lemma ell_not_convex : check_convexity ell = Ret false.
Proof.
  assert (N : forall i, (i < length ell)%nat -> Rabs (turn ell i) <> TH) by (intros i Hi; cbn [length ell] in Hi; do 6 (destruct i as [|i]; [turns|]); lia).
  destruct (C52_convexity_partial ell N) as [T C]. assert (E : exists b, check_convexity ell = Ret b) by (apply T; exists 1%nat; split; [cbn; lia|turns]). destruct E as [b E]. rewrite E. f_equal.
  destruct b; [exfalso|reflexivity]. destruct (proj1 (proj1 (C true E)) eq_refl) as [K|K].
  - specialize (K 3%nat ltac:(cbn; lia)). revert K. unfold turn, ell, area2, cross, vsub. cbn. unfold TH. lra.
  - specialize (K 1%nat ltac:(cbn; lia)). revert K. unfold turn, ell, area2, cross, vsub. cbn. unfold TH. lra.
Qed.
Lemma core_convex : check_convexity core = Ret true.
Proof.
  assert (N : forall i, (i < length core)%nat -> Rabs (turn core i) <> TH) by (intros i Hi; cbn [length core] in Hi; do 4 (destruct i as [|i]; [turns|]); lia).
  destruct (C52_convexity_partial core N) as [T C]. assert (E : exists b, check_convexity core = Ret b) by (apply T; exists 1%nat; split; [cbn; lia|turns]). destruct E as [b E]. rewrite E. f_equal.
  apply (proj1 (C b E)). left. intros i Hi. cbn [length core] in Hi. do 4 (destruct i as [|i]; [unfold turn, core, area2, cross, vsub; cbn; unfold TH; lra|]). lia.
Qed.
Example C106_example : asked_ring ell [AskConvex; DilateTo core] = Some ell /\ ring_after ell [AskConvex; DilateTo core] = core /\
  snd (ask_convex CStarPolygon (query_run CStarPolygon ell [AskConvex; DilateTo core])) = Ret true /\ Forall asks [AskConvex; AskStar].
Proof.
  split; [cbn [asked_ring]; rewrite ell_not_convex; reflexivity|]. split; [reflexivity|]. split; [|repeat constructor].
  destruct (C106_dilated_partial CStarPolygon ell [AskConvex; DilateTo core] (or_introl eq_refl)) as [-> _]. exact core_convex.
Qed.

(** C106: refuted for plain polygons: the square inside the L is called not convex and not star-shaped if the L was asked before *)
Theorem C106_stale_refuted : exists v v' p, (forall q, shrunk ell_region p q <-> core_region q) /\ v = ell /\ v' = core /\ check_convexity v' = Ret true /\
  let s := query_run CPolygon v [AskConvex; DilateTo v'] in snd (ask_convex CPolygon s) = Ret false /\ snd (ask_star CPolygon s) = Ret false /\
  snd (ask_convex CPolygon (query_run CPolygon v [DilateTo v'])) = Ret true.
Proof.
  exists ell, core, 1. split; [exact core_is_shrunk|]. split; [reflexivity|]. split; [reflexivity|]. split; [exact core_convex|]. cbv zeta.
  assert (A : snd (ask_convex CPolygon (query_run CPolygon ell [AskConvex; DilateTo core])) = Ret false) by (rewrite C106_polygon_partial; cbn [asked_ring]; rewrite ell_not_convex; exact ell_not_convex).
  split; [exact A|]. split.
  - revert A. set (s := query_run CPolygon ell [AskConvex; DilateTo core]). assert (E : q_star s = None) by (unfold s, query_run; cbn [fold_left query_step dilate q_star]; unfold ask_convex; cbn [new_shape q_convex check_for q_ring]; rewrite ell_not_convex; reflexivity).
    unfold ask_star. rewrite E. destruct (ask_convex CPolygon s) as [s' r]. cbn [snd]. intros ->. reflexivity.
  - rewrite C106_polygon_partial. exact core_convex.
Qed.
Print Assumptions C106_stale_refuted.
