(** Polygons given as triangles with rational corners: everything about them is decided by computation. *)
From Coq Require Import QArith Qreals Reals Lra Psatz List Bool Arith ZArith Lia.
From Verif Require Import Num Spec M_Cg M_Motion M_Obstacle M_PolHull S_PolHull L_Geom L_Cg L_PolHull L_PolHull2 W_PolWorld W_PolTransfer.
Import ListNotations.
Open Scope R_scope.

Definition tri : Type := (pt Q * pt Q * pt Q)%type.
Definition qtri (t : tri) : list (half Q) := let '(a, b, c) := t in triangle a b c.
Definition areaQ (a b c : pt Q) : Q := @hval Q NumQ (left_of a b) c.
Lemma areaQ_R a b c : area2 (qp a) (qp b) (qp c) = Q2R (areaQ a b c).
Proof. unfold areaQ. rewrite t_hval, t_left_of, left_of_area2. reflexivity. Qed.
Definition tri_in (t : tri) (x : Pt) : Prop := let '(a, b, c) := t in in_triangle_of (qp a) (qp b) (qp c) x.
Definition tri_region (ts : list tri) : region := fun x => exists t, In t ts /\ tri_in t x.
Definition tri_world (ts : list tri) (K : list (pt Q)) : pol_world R := pieces_world (map (map qh) (map qtri ts)) (map qp K).

Lemma tri_pieces ts x : in_pieces (map (map qh) (map qtri ts)) x <-> tri_region ts x.
Proof.
  unfold in_pieces, tri_region. split.
  - intros (pc & Hp & F). rewrite map_map in Hp. apply in_map_iff in Hp as ([[a b] c] & <- & Ht). exists (a, b, c). split; auto.
    cbn [qtri tri_in] in *. unfold triangle in F. cbn [map] in F. rewrite !t_left_of, !Forall_cons_iff in F. unfold in_half in F. rewrite !left_of_area2 in F.
    unfold in_triangle_of. tauto.
  - intros ([[a b] c] & Ht & F). exists (map qh (qtri (a, b, c))). split; [rewrite map_map; apply in_map_iff; eauto|].
    cbn [qtri tri_in] in *. unfold triangle. cbn [map]. rewrite !t_left_of, !Forall_cons_iff. unfold in_half. rewrite !left_of_area2.
    unfold in_triangle_of in F. intuition.
Qed.
Lemma faithful_iff (A B : region) K W : (forall x, A x <-> B x) -> faithful A K W -> faithful B K W.
Proof.
  intros E F. constructor.
  - intros s. rewrite (f_disjoint _ _ _ F). split; intros H x Hx Bx; eapply H; eauto; apply E; auto.
  - intros s x. rewrite (f_meet _ _ _ F), E. reflexivity.
  - intros s. rewrite (f_meet_empty _ _ _ F). split; intros H x Hx Bx; eapply H; eauto; apply E; auto.
  - apply (f_cross _ _ _ F).
  - apply (f_kernel _ _ _ F).
Qed.
Lemma tri_faithful ts K : faithful (tri_region ts) (map qp K) (tri_world ts K).
Proof. eapply faithful_iff; [apply tri_pieces|apply pieces_faithful]. Qed.
Lemma tri_run ts K vs : polygon_kernel_starshaped_hull (tri_world ts K) (map qp K) (map qp vs) =
  rmap (map qp) (polygon_kernel_starshaped_hull (pieces_world (map qtri ts) K) K vs).
Proof. apply run_on_Q. Qed.

Definition posb (q : Q) : bool := negb (Qle_bool q 0).
Lemma posb_R q : posb q = true <-> 0 < Q2R q.
Proof.
  unfold posb. rewrite negb_true_iff. split.
  - intros H. apply Rnot_le_lt. intros L. rewrite <- RMicromega.Q2R_0 in L. apply Rle_Qle in L. apply Qle_bool_iff in L. congruence.
  - intros H. destruct (Qle_bool q 0) eqn:E; auto. apply Qle_bool_iff, Qle_Rle in E. rewrite RMicromega.Q2R_0 in E. lra.
Qed.
Lemma geb_R q : Qle_bool 0 q = true <-> 0 <= Q2R q.
Proof.
  rewrite Qle_bool_iff. split; intros H.
  - apply Qle_Rle in H. rewrite RMicromega.Q2R_0 in H. auto.
  - rewrite <- RMicromega.Q2R_0 in H. apply Rle_Qle in H. auto.
Qed.
Definition tri_inb (x : pt Q) (t : tri) : bool :=
  let '(a, b, c) := t in Qle_bool 0 (areaQ a b x) && Qle_bool 0 (areaQ b c x) && Qle_bool 0 (areaQ c a x).
Lemma tri_dec ts x : tri_region ts (qp x) <-> existsb (tri_inb x) ts = true.
Proof.
  rewrite existsb_exists. unfold tri_region. split; intros ([[a b] c] & Ht & H); exists (a, b, c); (split; [auto|]);
    cbn [tri_in tri_inb] in *; unfold in_triangle_of in *; rewrite !andb_true_iff, !geb_R, <- !areaQ_R in *; tauto.
Qed.

(** building [encloses] *)
Lemma enc_tri1 a b c : posb (areaQ a b c) = true -> encloses (map qp [a; b; c]) (tri_region [(a, b, c)]).
Proof.
  intros H. apply posb_R in H. rewrite <- areaQ_R in H. eapply enc_same; [apply (enc_triangle _ _ _ H)|].
  intros x. unfold tri_region. split.
  - intros Hx. exists (a, b, c). split; [left; auto|exact Hx].
  - intros (t & [<-|[]] & Hx). exact Hx.
Qed.
Definition ear_ok (a b c : pt Q) (ts : list tri) : bool :=
  posb (areaQ a b c) && forallb (fun '(p, q, r) => posb (areaQ p q r) && Qle_bool 0 (areaQ a c p) && Qle_bool 0 (areaQ a c q) && Qle_bool 0 (areaQ a c r)) ts.
Lemma area_bary (a b p q r x : Pt) : area2 p q r * area2 a b x = area2 q r x * area2 a b p + area2 r p x * area2 a b q + area2 p q x * area2 a b r.
Proof. destruct a, b, p, q, r, x. unv. ring. Qed.
Lemma in_tri_side (a b p q r x : Pt) : 0 < area2 p q r -> 0 <= area2 a b p -> 0 <= area2 a b q -> 0 <= area2 a b r -> in_triangle_of p q r x -> 0 <= area2 a b x.
Proof.
  intros D Hp Hq Hr (X1 & X2 & X3). pose proof (area_bary a b p q r x) as E.
  apply Rmult_le_reg_l with (area2 p q r); auto. rewrite Rmult_0_r, E.
  pose proof (Rmult_le_pos _ _ X2 Hp). pose proof (Rmult_le_pos _ _ X3 Hq). pose proof (Rmult_le_pos _ _ X1 Hr). lra.
Qed.
Lemma in_tri_diag (a b c x : Pt) : 0 < area2 a b c -> in_triangle_of a b c x -> area2 a c x = 0 -> on_seg a c x.
Proof.
  intros D (X1 & X2 & X3) Z. exists (area2 a b x / area2 a b c).
  assert (Sm : area2 a b x + area2 b c x + area2 c a x = area2 a b c) by (destruct a, b, c, x; unv; ring).
  assert (Fl : area2 c a x = - area2 a c x) by (destruct a, c, x; unv; ring).
  assert (I : 0 < / area2 a b c) by (apply Rinv_0_lt_compat; auto). split.
  - split; [unfold Rdiv; nra|]. apply Rmult_le_reg_r with (area2 a b c); auto. unfold Rdiv. rewrite Rmult_assoc, Rinv_l by lra. lra.
  - assert (E1 : area2 a b c * (fst x - fst a) = area2 a b x * (fst c - fst a) - area2 a c x * (fst b - fst a)) by (destruct a, b, c, x; unv; cbn [fst snd]; ring).
    assert (E2 : area2 a b c * (snd x - snd a) = area2 a b x * (snd c - snd a) - area2 a c x * (snd b - snd a)) by (destruct a, b, c, x; unv; cbn [fst snd]; ring).
    rewrite Z in E1, E2. assert (Ne : area2 a b c <> 0) by lra.
    assert (Q1 : fst x = fst a + area2 a b x / area2 a b c * (fst c - fst a)).
    { apply Rmult_eq_reg_l with (area2 a b c); auto. replace (area2 a b c * (fst a + area2 a b x / area2 a b c * (fst c - fst a))) with
        (area2 a b c * fst a + area2 a b x * (fst c - fst a)) by (field; auto). lra. }
    assert (Q2 : snd x = snd a + area2 a b x / area2 a b c * (snd c - snd a)).
    { apply Rmult_eq_reg_l with (area2 a b c); auto. replace (area2 a b c * (snd a + area2 a b x / area2 a b c * (snd c - snd a))) with
        (area2 a b c * snd a + area2 a b x * (snd c - snd a)) by (field; auto). lra. }
    remember (area2 a b x / area2 a b c) as t. destruct x as [x1 x2], a, c. cbn [fst snd] in *. unv. apply pair_eq; assumption.
Qed.
Lemma enc_ear1 a b c l ts : encloses (map qp (a :: c :: l)) (tri_region ts) -> ear_ok a b c ts = true ->
  encloses (map qp (a :: b :: c :: l)) (tri_region ((a, b, c) :: ts)).
Proof.
  intros H E. unfold ear_ok in E. apply andb_true_iff in E as [D E]. apply posb_R in D. rewrite <- areaQ_R in D.
  rewrite forallb_forall in E. cbn [map] in *. eapply enc_same; [apply (enc_ear _ _ _ _ _ D H)|].
  - intros x ([[p q] r] & Ht & Hx) Hy. specialize (E _ Ht). cbn beta iota in E. rewrite !andb_true_iff, !geb_R, posb_R, <- !areaQ_R in E. destruct E as [[[E0 E1] E2] E3].
    apply (in_tri_diag _ (qp b)); auto. pose proof (in_tri_side _ _ _ _ _ x E0 E1 E2 E3 Hx) as L. destruct Hy as (_ & _ & Hy).
    assert (Fl : area2 (qp c) (qp a) x = - area2 (qp a) (qp c) x) by (destruct a, c, x; unv; ring). lra.
  - intros x. unfold tri_region. split.
    + intros [(t & Ht & Hx)|Hx]; [exists t; split; [right; auto|auto]|exists (a, b, c); split; [left; auto|exact Hx]].
    + intros (t & [<-|Ht] & Hx); [right; exact Hx|left; eauto].
Qed.
Lemma enc_turn1 a l ts : encloses (map qp (a :: l)) (tri_region ts) -> encloses (map qp (l ++ [a])) (tri_region ts).
Proof. intros H. rewrite map_app. apply enc_turn. exact H. Qed.
