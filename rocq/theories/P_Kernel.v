(** obstacles/starshaped_polygon.py _compute_kernel and the constructor: C95 (convex polygons), C96 (rigid motions),
    C97 (the result is the kernel), C98 (a star-shaped polygon gets an answer), C99 (default reference point). *)
From Coq Require Import QArith Qreals Reals Lra Psatz List Bool Arith ZArith Lia.
From Verif Require Import Num Spec S_PolHull S_Kernel M_Cg M_Motion M_Obstacle M_Polygon M_PolHull M_Kernel L_Geom L_Cg L_KernelSim W_KernelQ L_KernelMove
  L_KernelDart L_DartGeom L_DartKernel L_KernelConvex W_PolWorld W_PolTransfer W_PolTriangles P_Polygon.
Import ListNotations.
Open Scope R_scope.

(** *** C95 *)
Theorem C95_convex_partial : forall v : list Pt, convex_ccw v ->
  (forall i, (i < length v)%nat -> Rabs (turn v i) <> TH) -> (exists i, (i + 1 < length v)%nat /\ TH <= Rabs (turn v i)) ->
  exists k, compute_kernel v = Ret (Some k) /\ forall x, left_of_all k x <-> kernel_of (left_of_all v) x.
Proof.
  intros v C H E. exists v. split; [|intros x; symmetry; apply left_kernel_all].
  destruct (C52_convexity_partial v H) as [A B]. destruct (proj2 A E) as [b Hb]. destruct (B b Hb) as [_ [T _]].
  unfold compute_kernel. rewrite Hb, (T C). reflexivity.
Qed.
Print Assumptions C95_convex_partial.
Example C95_example : let v := [(0, 0); (4, 0); (4, 3); (0, 3)] in
  convex_ccw v /\ (forall i, (i < length v)%nat -> Rabs (turn v i) <> TH) /\ (exists i, (i + 1 < length v)%nat /\ TH <= Rabs (turn v i)).
Proof.
  cbv zeta. assert (T1 : TH < 12) by (unfold TH; lra). split; [|split].
  - intros a b E r R0. cbn in E, R0. destruct E as [E|[E|[E|[E|[]]]]]; injection E as <- <-; destruct R0 as [<-|[<-|[<-|[<-|[]]]]]; unfold area2, cross, vsub; cbn [fst snd]; lra.
  - intros [|[|[|[|i]]]] Hi; cbn in Hi; [| | | |lia]; unfold turn, area2, cross, vsub; cbn [length Nat.add Nat.sub Nat.modulo Nat.divmod fst snd nth]; rewrite Rabs_right by lra; lra.
  - exists 0%nat. split; [cbn; lia|]. unfold turn, area2, cross, vsub; cbn [length Nat.add Nat.sub Nat.modulo Nat.divmod fst snd nth]. rewrite Rabs_right by lra. lra.
Qed.
(** a triangle whose sides are a hundred-thousandth long is a convex polygon without a kernel *)
Theorem C95_tiny_refuted : exists v : list Pt, convex_ccw v /\ length v = 3%nat /\ (exists a b c, v = [a; b; c] /\ 0 < area2 a b c) /\ compute_kernel v = Exn IndexErr.
Proof.
  set (e := 1 / 1000000). exists [(0, 0); (e, 0); (0, e)]. assert (P : 0 < e * e < TH) by (unfold e, TH; lra). assert (0 < e) by (unfold e; lra).
  split; [|split; [reflexivity|split]].
  - intros a b E r R0. cbn in E, R0. destruct E as [E|[E|[E|[]]]]; injection E as <- <-; destruct R0 as [<-|[<-|[<-|[]]]]; unfold area2, cross, vsub; cbn [fst snd]; lra.
  - do 3 eexists. split; [reflexivity|]. unfold area2, cross, vsub. cbn [fst snd]. lra.
  - unfold compute_kernel. rewrite C52_all_collinear_refuted; [reflexivity|].
    intros [|[|[|i]]] Hi; cbn in Hi; [| | |lia]; unfold turn, area2, cross, vsub; cbn [length Nat.add Nat.sub Nat.modulo Nat.divmod fst snd nth]; rewrite Rabs_right by lra; lra.
Qed.
Print Assumptions C95_tiny_refuted.

(** *** C96 *)
Lemma area2_place r t a b c : area2 (place r t a) (place r t b) (place r t c) = area2 a b c.
Proof. unfold place, rotv, area2, cross, vsub, vadd. cbn [fst snd]. pose proof (sin2_cos2 r) as E. unfold Rsqr in E.
  destruct a as [a1 a2], b as [b1 b2], c as [c1 c2]. cbn [fst snd].
  replace ((b1 - a1) * (c2 - a2) - (b2 - a2) * (c1 - a1)) with ((sin r * sin r + cos r * cos r) * ((b1 - a1) * (c2 - a2) - (b2 - a2) * (c1 - a1))) by (rewrite E; ring). ring.
Qed.
Theorem C96_kernel_moves : forall r t (v : list Pt),
  compute_kernel (map (place r t) v) = match compute_kernel v with Ret (Some k) => Ret (Some (map (place r t) k)) | Ret None => Ret None | Exn e => Exn e end.
Proof. intros r t v. rewrite compute_kernel_move. destruct (compute_kernel v) as [[k|]|e]; reflexivity. Qed.
Print Assumptions C96_kernel_moves.

Example C96_example : forall r t, exists v k, check_convexity v = Ret false /\ compute_kernel v = Ret (Some k) /\ length k = 4%nat /\
  compute_kernel (map (place r t) v) = Ret (Some (map (place r t) k)).
Proof.
  intros r t. set (v := [(0, 0); (-1, 0); (-1, -6); (8, 6)]%Q). destruct (q_kernel v) as [[k|]|e] eqn:E; [|vm_compute in E; discriminate|vm_compute in E; discriminate].
  assert (K : compute_kernel (map qp v) = Ret (Some (map qp k))) by (rewrite compute_kernel_Q by (vm_compute; reflexivity); rewrite E; reflexivity).
  exists (map qp v), (map qp k). split; [rewrite t_convexity; vm_compute; reflexivity|]. split; [exact K|]. split.
  - rewrite map_length. vm_compute in E. injection E as <-. reflexivity.
  - rewrite C96_kernel_moves, K. reflexivity.
Qed.

(** *** fans *)
Fixpoint fan (k : pt Q) (l : list (pt Q)) : list tri :=
  match l with a :: (b :: _) as r => (k, a, b) :: fan k r | _ => [] end.
Fixpoint fan_ok (k : pt Q) (l : list (pt Q)) : bool :=
  match l with
  | a :: (b :: l') as r => match l' with [] => posb (areaQ k a b) | _ => ear_ok k a b (fan k r) && fan_ok k r end
  | _ => false
  end.
Lemma fan_encloses k l : fan_ok k l = true -> encloses (map qp (k :: l)) (tri_region (fan k l)).
Proof.
  induction l as [|a l IH]; [discriminate|]. destruct l as [|b l']; [discriminate|]. intros H.
  destruct l' as [|c l''].
  - cbn [fan]. apply enc_tri1. exact H.
  - change (ear_ok k a b (fan k (b :: c :: l'')) && fan_ok k (b :: c :: l'') = true) in H. apply andb_true_iff in H as [H1 H2].
    change (fan k (a :: b :: c :: l'')) with ((k, a, b) :: fan k (b :: c :: l'')). apply enc_ear1; [apply IH, H2|exact H1].
Qed.
Lemma tri_star k a b x r : 0 < area2 k a b -> in_triangle_of k a b x -> on_seg k x r -> in_triangle_of k a b r.
Proof.
  intros P (H1 & H2 & H3) (t & Ht & ->). unfold in_triangle_of. rewrite !along_side.
  assert (E1 : area2 k a k = 0) by (destruct k, a; unv; ring). assert (E2 : area2 b k k = 0) by (destruct k, b; unv; ring).
  assert (E3 : area2 a b k = area2 k a b) by (destruct k, a, b; unv; ring). rewrite E1, E2, E3.
  repeat split; apply Rplus_le_le_0_compat; apply Rmult_le_pos; lra.
Qed.
Lemma fan_pos k l a b c : fan_ok k l = true -> In (a, b, c) (fan k l) -> a = k /\ 0 < area2 (qp k) (qp b) (qp c).
Proof.
  induction l as [|a0 l IH]; [discriminate|]. destruct l as [|b0 l']; [discriminate|]. intros H I.
  destruct l' as [|c0 l''].
  - cbn [fan] in I. destruct I as [E|[]]. injection E as <- <- <-. split; [reflexivity|]. rewrite areaQ_R. apply posb_R. exact H.
  - change (ear_ok k a0 b0 (fan k (b0 :: c0 :: l'')) && fan_ok k (b0 :: c0 :: l'') = true) in H. apply andb_true_iff in H as [H1 H2].
    change (fan k (a0 :: b0 :: c0 :: l'')) with ((k, a0, b0) :: fan k (b0 :: c0 :: l'')) in I. destruct I as [E|I].
    + injection E as <- <- <-. split; [reflexivity|]. rewrite areaQ_R. apply posb_R. unfold ear_ok in H1. now apply andb_true_iff in H1 as [H1 _].
    + exact (IH H2 I).
Qed.
Lemma fan_star k l : fan_ok k l = true -> starshaped_from (tri_region (fan k l)) (qp k).
Proof.
  intros H x r ([[a b] c] & I & T) Hr. destruct (fan_pos _ _ _ _ _ H I) as [-> P]. exists (k, b, c). split; [exact I|]. exact (tri_star _ _ _ _ _ P T Hr).
Qed.
Lemma fan_has k l : fan_ok k l = true -> tri_region (fan k l) (qp k).
Proof.
  intros H. destruct l as [|a [|b l]]; try discriminate. exists (k, a, b). split; [now left|]. destruct (fan_pos k (a :: b :: l) k a b H (or_introl eq_refl)) as [_ P].
  cbn [tri_in]. assert (E1 : area2 (qp k) (qp a) (qp k) = 0) by (destruct (qp k), (qp a); unv; ring). assert (E2 : area2 (qp b) (qp k) (qp k) = 0) by (destruct (qp k), (qp b); unv; ring).
  assert (E3 : area2 (qp a) (qp b) (qp k) = area2 (qp k) (qp a) (qp b)) by (destruct (qp k), (qp a), (qp b); unv; ring).
  unfold in_triangle_of. rewrite E1, E2, E3. lra.
Qed.
Lemma fan_kernel k l : fan_ok k l = true -> kernel_of (tri_region (fan k l)) (qp k).
Proof. intros H. split; [now apply fan_has|now apply fan_star]. Qed.
Lemma enc_turns j : forall l ts, encloses (map qp l) (tri_region ts) -> encloses (map qp (skipn j l ++ firstn j l)) (tri_region ts).
Proof.
  induction j as [|j IH]; intros l ts H; [cbn [skipn firstn]; now rewrite app_nil_r|].
  destruct l as [|a l]; [exact H|]. cbn [skipn firstn]. destruct (Nat.le_gt_cases j (length l)) as [L|L].
  - pose proof (IH _ _ (enc_turn1 _ _ _ H)) as K. rewrite skipn_app, firstn_app in K. replace (j - length l)%nat with 0%nat in K by lia.
    cbn [skipn firstn] in K. rewrite app_nil_r, <- app_assoc in K. exact K.
  - rewrite skipn_all2, firstn_all2 by lia. exact H.
Qed.
(** a star-shaped polygon listed as [v], with the vertex [k] in its kernel *)
Lemma fan_turned k l j v : fan_ok k l = true -> skipn j (k :: l) ++ firstn j (k :: l) = v ->
  encloses (map qp v) (tri_region (fan k l)) /\ kernel_of (tri_region (fan k l)) (qp k).
Proof. intros H <-. split; [now apply enc_turns, fan_encloses|now apply fan_kernel]. Qed.

(** *** C97 *)
Theorem C97_dart_partial : forall o a b c p q : Pt,
  area2 c o a < - TH -> TH < area2 o a b -> TH < area2 b c o ->
  dist a b <= 150 -> dist b c <= 150 -> dist c a <= 150 ->
  on_line a b p -> on_line o c p -> on_line b c q -> on_line o a q ->
  dist b c / 10 <= area2 p b c -> 1 / 10 <= dist q c ->
  forall v, In v [[o; a; b; c]; [a; b; c; o]; [b; c; o; a]; [c; o; a; b]] ->
  exists k, compute_kernel v = Ret (Some k) /\ convex_ccw k /\
    encloses v (quad o a b c) /\ forall x, left_of_all k x <-> kernel_of (quad o a b c) x.
Proof.
  intros o a b c p q H1 H2 H3 H4 H5 H6 H7 H8 H9 H10 H11 H12 v I. exists [o; p; b; q].
  destruct (dart_result o a b c p q H1 H2 H3 H4 H5 H6 H7 H8 H9 H10 H11 H12 v I) as (A & B & C & D). auto.
Qed.
Print Assumptions C97_dart_partial.
Example C97_example : let o := (0, 0) in let a := (-1, 0) in let b := (-1, -6) in let c := (8, 6) in let p := (-1, -3 / 4) in let q := (7 / 2, 0) in
  area2 c o a < - TH /\ TH < area2 o a b /\ TH < area2 b c o /\ dist a b <= 150 /\ dist b c <= 150 /\ dist c a <= 150 /\
  on_line a b p /\ on_line o c p /\ on_line b c q /\ on_line o a q /\ dist b c / 10 <= area2 p b c /\ 1 / 10 <= dist q c.
Proof.
  cbv zeta. assert (T1 : TH < 1) by (unfold TH; lra).
  assert (D1 : dist (-1, 0) (-1, -6) = 6) by (apply dist_eq; [lra|]; unfold norm2, dot, vsub; cbn [fst snd]; lra).
  assert (D2 : dist (-1, -6) (8, 6) = 15) by (apply dist_eq; [lra|]; unfold norm2, dot, vsub; cbn [fst snd]; lra).
  assert (D3 : dist (8, 6) (-1, 0) <= 150) by (unfold dist; apply norm_le; [lra|]; unfold norm2, dot, vsub; cbn [fst snd]; lra).
  assert (D4 : dist (7 / 2, 0) (8, 6) = 15 / 2) by (apply dist_eq; [lra|]; unfold norm2, dot, vsub; cbn [fst snd]; lra).
  rewrite D1, D2, D4. repeat split; try (unfold area2, cross, vsub; cbn [fst snd]; lra); try exact D3.
  - exists (1 / 8). unfold along, vadd, smul, vsub. cbn [fst snd]. f_equal; lra.
  - exists (- 1 / 8). unfold along, vadd, smul, vsub. cbn [fst snd]. f_equal; lra.
  - exists (1 / 2). unfold along, vadd, smul, vsub. cbn [fst snd]. f_equal; lra.
  - exists (- 7 / 2). unfold along, vadd, smul, vsub. cbn [fst snd]. f_equal; lra.
Qed.

(** the four corners of a quadrilateral and its kernel, with rational corners *)
Lemma dart_facts (o a b c : pt Q) : posb (- areaQ c o a) = true -> posb (areaQ o a b) = true -> posb (areaQ b c o) = true ->
  encloses (map qp [o; a; b; c]) (quad (qp o) (qp a) (qp b) (qp c)) /\
  (forall x, kernel_of (quad (qp o) (qp a) (qp b) (qp c)) x <-> left_of_all (map qp [o; a; b; c]) x).
Proof.
  intros H0 H1 H2. apply posb_R in H0, H1, H2. rewrite Q2R_opp in H0. rewrite <- areaQ_R in H0, H1, H2.
  assert (G := dart_exists (qp o) (qp a) (qp b) (qp c) ltac:(lra) H1 H2). cbv zeta in G.
  split; [exact (dart_encloses _ _ _ _ _ _ _ _ _ _ G)|exact (dart_kernel _ _ _ _ _ _ _ _ _ _ G)].
Qed.
Definition all_left (v : list (pt Q)) (x : pt Q) : bool := forallb (fun e => Qle_bool 0 (areaQ (fst e) (snd e) x)) (cyc_edges v).
Lemma cyc_map {A B} (f : A -> B) l : cyc_edges (map f l) = map (fun e => (f (fst e), f (snd e))) (cyc_edges l).
Proof.
  destruct l as [|a l]; [reflexivity|]. cbn [cyc_edges map]. change (f a :: map f l) with (map f (a :: l)).
  replace (map f l ++ [f a]) with (map f (l ++ [a])) by (rewrite map_app; reflexivity). generalize (a :: l) (l ++ [a]). clear.
  induction l as [|x l IH]; intros [|y m]; cbn; try reflexivity. now rewrite IH.
Qed.
Lemma all_left_iff v x : left_of_all (map qp v) (qp x) <-> all_left v x = true.
Proof.
  unfold left_of_all, all_left. rewrite forallb_forall, cyc_map. split.
  - intros H [a b] I. cbn [fst snd]. apply geb_R. rewrite <- areaQ_R. apply H. apply in_map_iff. exists (a, b). auto.
  - intros H a b I. apply in_map_iff in I as ([a' b'] & E & I). injection E as <- <-. specialize (H _ I). cbn [fst snd] in *. apply geb_R in H. now rewrite areaQ_R.
Qed.
Definition ccwQ (v : list (pt Q)) : bool := forallb (all_left v) v.
Lemma ccwQ_convex v : ccwQ v = true -> convex_ccw (map qp v).
Proof.
  intros H a b E r R0. unfold ccwQ in H. rewrite forallb_forall in H. apply in_map_iff in R0 as (r' & <- & R0).
  apply (proj2 (all_left_iff v r') (H _ R0)). exact E.
Qed.
Lemma not_left v x : all_left v x = false -> ~ left_of_all (map qp v) (qp x).
Proof. intros H K. apply all_left_iff in K. congruence. Qed.
Lemma quad_dec o a b c x : quad (qp o) (qp a) (qp b) (qp c) (qp x) <-> tri_inb x (o, a, b) || tri_inb x (o, b, c) = true.
Proof.
  unfold quad. rewrite orb_true_iff. assert (K : forall t, tri_in t (qp x) <-> tri_inb x t = true).
  { intros t. pose proof (tri_dec [t] x) as T. cbn [existsb] in T. rewrite orb_false_r in T. rewrite <- T. unfold tri_region. split; [intros H; exists t; split; [now left|exact H]|now intros (t' & [<-|[]] & H)]. }
  rewrite <- (K (o, a, b)), <- (K (o, b, c)). reflexivity.
Qed.

(** a vertex of the result is not a point of the polygon *)
Definition far_dart : list (pt Q) := [(0, 0); (-120, 50); (150, -94); (150, 0)]%Q.
Definition far_kernel : list (pt Q) := match q_kernel far_dart with Ret (Some k) => k | _ => [] end.
Lemma far_run : compute_kernel (map qp far_dart) = Ret (Some (map qp far_kernel)).
Proof. rewrite compute_kernel_Q by (vm_compute; reflexivity). unfold far_kernel. vm_compute (q_kernel far_dart). reflexivity. Qed.
Theorem C97_outside_refuted : exists v A k x, encloses v A /\ (exists z, kernel_of A z) /\ compute_kernel v = Ret (Some k) /\ convex_ccw k /\ In x k /\ ~ A x.
Proof.
  exists (map qp far_dart), (quad (qp (0, 0)%Q) (qp (-120, 50)%Q) (qp (150, -94)%Q) (qp (150, 0)%Q)), (map qp far_kernel), (qp (hd (0, 0)%Q far_kernel)).
  destruct (dart_facts (0, 0)%Q (-120, 50)%Q (150, -94)%Q (150, 0)%Q eq_refl eq_refl eq_refl) as [E K].
  split; [exact E|]. split; [exists (qp (0, 0)%Q); apply K; apply (all_left_iff far_dart); vm_compute; reflexivity|].
  split; [exact far_run|]. split; [apply ccwQ_convex; vm_compute; reflexivity|]. split; [apply in_map; vm_compute; auto|].
  rewrite quad_dec. vm_compute. discriminate.
Qed.
Print Assumptions C97_outside_refuted.
(** a point that sees the whole polygon is missing *)
Definition lost_dart : list (pt Q) := [(0, 0); (84, -35); (-212, 187); (-212, 0)]%Q.
Definition lost_kernel : list (pt Q) := match q_kernel lost_dart with Ret (Some k) => k | _ => [] end.
Lemma lost_run : compute_kernel (map qp lost_dart) = Ret (Some (map qp lost_kernel)).
Proof. rewrite compute_kernel_Q by (vm_compute; reflexivity). unfold lost_kernel. vm_compute (q_kernel lost_dart). reflexivity. Qed.
Theorem C97_missing_refuted : exists v A k x, encloses v A /\ compute_kernel v = Ret (Some k) /\ convex_ccw k /\ kernel_of A x /\ ~ left_of_all k x.
Proof.
  exists (map qp lost_dart), (quad (qp (0, 0)%Q) (qp (84, -35)%Q) (qp (-212, 187)%Q) (qp (-212, 0)%Q)), (map qp lost_kernel), (qp (-212, 187)%Q).
  destruct (dart_facts (0, 0)%Q (84, -35)%Q (-212, 187)%Q (-212, 0)%Q eq_refl eq_refl eq_refl) as [E K].
  split; [exact E|]. split; [exact lost_run|]. split; [apply ccwQ_convex; vm_compute; reflexivity|].
  split; [apply K; apply (all_left_iff lost_dart); vm_compute; reflexivity|]. apply not_left. vm_compute. reflexivity.
Qed.
Print Assumptions C97_missing_refuted.
(** a hexagon that fits in a 9 by 18 box, with a wrong vertex *)
Definition hexa : list (pt Q) := [(4, 0); (4, -11); (9, 1); (1, 7); (4, 3); (0, 0)]%Q.
Definition hexa_rest : list (pt Q) := [(1, 7); (4, 3); (0, 0); (4, 0); (4, -11)]%Q.
Definition hexa_kernel : list (pt Q) := match q_kernel hexa with Ret (Some k) => k | _ => [] end.
Lemma hexa_run : compute_kernel (map qp hexa) = Ret (Some (map qp hexa_kernel)).
Proof. rewrite compute_kernel_Q by (vm_compute; reflexivity). unfold hexa_kernel. vm_compute (q_kernel hexa). reflexivity. Qed.
Definition mid (p q : pt Q) : pt Q := ((fst p + fst q) / 2, (snd p + snd q) / 2)%Q.
Lemma mid_on p q : on_seg (qp p) (qp q) (qp (mid p q)).
Proof.
  exists (1 / 2). split; [lra|]. destruct p, q. unfold mid, qp, along, vadd, smul, vsub. cbn [fst snd]. rewrite !Q2R_div, !Q2R_plus by (intros E; inversion E).
  replace (Q2R 2) with 2 by (unfold Q2R; cbn; lra). f_equal; field.
Qed.
Theorem C97_small_refuted : exists v A k x, encloses v A /\ (exists z, kernel_of A z) /\ (forall p, In p v -> 0 <= fst p <= 9 /\ -11 <= snd p <= 7) /\
  compute_kernel v = Ret (Some k) /\ convex_ccw k /\ In x k /\ ~ starshaped_from A x.
Proof.
  assert (F : fan_ok (9, 1)%Q hexa_rest = true) by (vm_compute; reflexivity).
  destruct (fan_turned (9, 1)%Q hexa_rest 4 hexa F eq_refl) as [E K].
  exists (map qp hexa), (tri_region (fan (9, 1)%Q hexa_rest)), (map qp hexa_kernel), (qp (last hexa_kernel (0, 0)%Q)).
  split; [exact E|]. split; [eexists; exact K|]. split.
  { intros p I. cbn in I. repeat (destruct I as [<-|I]; [unfold qp, Q2R; cbn; lra|]). destruct I. }
  split; [exact hexa_run|]. split; [apply ccwQ_convex; vm_compute; reflexivity|]. split; [apply in_map; vm_compute; auto 10|].
  intros S. assert (O : tri_region (fan (9, 1)%Q hexa_rest) (qp (0, 0)%Q)) by (apply tri_dec; vm_compute; reflexivity).
  specialize (S _ _ O (mid_on _ _)). apply tri_dec in S. vm_compute in S. discriminate.
Qed.
Print Assumptions C97_small_refuted.

(** *** C98 *)
Theorem C98_none_refuted : exists v A z, encloses v A /\ kernel_of A z /\ (forall p, In p v -> 0 <= fst p <= 17 /\ -8 <= snd p <= 13) /\ compute_kernel v = Ret None.
Proof.
  set (v := [(9, 0); (9, -8); (17, 7); (9, 13); (12, 9); (0, 0)]%Q). set (l := [(9, 13); (12, 9); (0, 0); (9, 0); (9, -8)]%Q).
  destruct (fan_turned (17, 7)%Q l 4 v ltac:(vm_compute; reflexivity) eq_refl) as [E K].
  exists (map qp v), (tri_region (fan (17, 7)%Q l)), (qp (17, 7)%Q). split; [exact E|]. split; [exact K|]. split.
  { intros p I. cbn in I. repeat (destruct I as [<-|I]; [unfold qp, Q2R; cbn; lra|]). destruct I. }
  rewrite compute_kernel_Q by (vm_compute; reflexivity). vm_compute (q_kernel v). reflexivity.
Qed.
Print Assumptions C98_none_refuted.
Theorem C98_value_refuted : exists v A z, encloses v A /\ kernel_of A z /\ (forall p, In p v -> 0 <= fst p <= 40 /\ -42 <= snd p <= 30) /\ compute_kernel v = Exn ValueErr.
Proof.
  set (v := [(0, -42); (31, -42); (31, -27); (40, -15); (16, 30); (0, 0)]%Q). set (l := [(0, 0); (0, -42); (31, -42); (31, -27); (40, -15)]%Q).
  destruct (fan_turned (16, 30)%Q l 2 v ltac:(vm_compute; reflexivity) eq_refl) as [E K].
  exists (map qp v), (tri_region (fan (16, 30)%Q l)), (qp (16, 30)%Q). split; [exact E|]. split; [exact K|]. split.
  { intros p I. cbn in I. repeat (destruct I as [<-|I]; [unfold qp, Q2R; cbn; lra|]). destruct I. }
  rewrite compute_kernel_Q by (vm_compute; reflexivity). vm_compute (q_kernel v). reflexivity.
Qed.
Print Assumptions C98_value_refuted.
Theorem C98_index_refuted : exists v A z, encloses v A /\ kernel_of A z /\ (forall p, In p v -> -4 <= fst p <= 49 /\ -18 <= snd p <= 6) /\ compute_kernel v = Exn IndexErr.
Proof.
  set (v := [(0, -12); (-4, -12); (4, -18); (49, 6); (13, -9); (9, -12); (0, 0)]%Q). set (l := [(49, 6); (13, -9); (9, -12); (0, 0); (0, -12); (-4, -12)]%Q).
  destruct (fan_turned (4, -18)%Q l 5 v ltac:(vm_compute; reflexivity) eq_refl) as [E K].
  exists (map qp v), (tri_region (fan (4, -18)%Q l)), (qp (4, -18)%Q). split; [exact E|]. split; [exact K|]. split.
  { intros p I. cbn in I. repeat (destruct I as [<-|I]; [unfold qp, Q2R; cbn; lra|]). destruct I. }
  rewrite compute_kernel_Q by (vm_compute; reflexivity). vm_compute (q_kernel v). reflexivity.
Qed.
Print Assumptions C98_index_refuted.
(** an L has an answer, the same L a hundred times larger has none *)
Definition ell (s : Q) : list (pt Q) := [(0, 0); (12 * s, 0); (12 * s, 4 * s); (4 * s, 4 * s); (4 * s, 12 * s); (0, 12 * s)]%Q.
Definition ell_rest (s : Q) : list (pt Q) := [(12 * s, 0); (12 * s, 4 * s); (4 * s, 4 * s); (4 * s, 12 * s); (0, 12 * s)]%Q.
Theorem C98_size_refuted : exists v w A B z, encloses v A /\ encloses w B /\ kernel_of A z /\ kernel_of B (smul 100 z) /\ w = map (smul 100) v /\
  compute_kernel v = Ret (Some [(4, 4); (0, 4); (0, 0); (4, 0)]) /\ compute_kernel w = Ret None.
Proof.
  destruct (fan_turned (0, 0)%Q (ell_rest 1) 0 (ell 1) ltac:(vm_compute; reflexivity) ltac:(vm_compute; reflexivity)) as [E1 K1].
  destruct (fan_turned (0, 0)%Q (ell_rest 100) 0 (ell 100) ltac:(vm_compute; reflexivity) ltac:(vm_compute; reflexivity)) as [E2 K2].
  exists (map qp (ell 1)), (map qp (ell 100)), (tri_region (fan (0, 0)%Q (ell_rest 1))), (tri_region (fan (0, 0)%Q (ell_rest 100))), (qp (0, 0)%Q).
  split; [exact E1|]. split; [exact E2|]. split; [exact K1|]. split.
  { replace (smul 100 (qp (0, 0)%Q)) with (qp (0, 0)%Q) by (unfold qp, smul, Q2R; cbn; f_equal; lra). exact K2. }
  split; [cbn [ell map]; unfold qp, smul, Q2R; cbn; repeat (apply (f_equal2 cons); [apply pair_eq; lra|]); reflexivity|]. split.
  - rewrite compute_kernel_Q by (vm_compute; reflexivity). vm_compute (q_kernel (ell 1)). cbn [rmap option_map map]. unfold qp, Q2R. cbn. do 2 f_equal. repeat (apply (f_equal2 cons); [apply pair_eq; lra|]). reflexivity.
  - rewrite compute_kernel_Q by (vm_compute; reflexivity). vm_compute (q_kernel (ell 100)). reflexivity.
Qed.
Print Assumptions C98_size_refuted.

(** what comes back: the polygon itself when it is convex, otherwise distinct vertices, at least three of them (or none) *)
Lemma first_rows_nodup seen l : NoDup (first_rows code_ops seen l) /\ forall p, In p (first_rows code_ops seen l) -> In p l /\ ~ In p seen.
Proof.
  revert seen. induction l as [|a l IH]; intros seen; cbn [first_rows]; [split; [constructor|intros p []]|].
  destruct (existsb (k_eq code_ops a) seen) eqn:E.
  - destruct (IH seen) as [N I]. split; [exact N|]. intros p Hp. destruct (I p Hp). split; [now right|assumption].
  - destruct (IH (a :: seen)) as [N I]. split.
    + constructor; [|exact N]. intros Ha. destruct (I a Ha) as [_ K]. apply K. now left.
    + intros p [<-|Hp].
      * split; [now left|]. intros Hs. assert (existsb (k_eq code_ops a) seen = true) by (apply existsb_exists; exists a; split; [exact Hs|now apply t_eqb]). congruence.
      * destruct (I p Hp) as [J K]. split; [now right|]. intros Hs. apply K. now right.
Qed.
Theorem C98_form : forall v k : list Pt, compute_kernel v = Ret (Some k) ->
  (check_convexity v = Ret true /\ k = v) \/ (check_convexity v = Ret false /\ NoDup k /\ (k = [] \/ (3 <= length k)%nat)).
Proof.
  intros v k. unfold compute_kernel. destruct (check_convexity v) as [[|]|e]; cbn [bind]; [intros E; left; split; congruence| |discriminate].
  intros E. right. split; [reflexivity|]. unfold scan_kernel in E. destruct (remove_inline code_ops v) as [v1|e]; [|discriminate]. cbn [bind] in E.
  destruct (start_reflex code_ops v1) as [|d v2]; [discriminate|]. destruct (kernel_start code_ops (d :: v2)) as [s0|e]; [|discriminate]. cbn [bind] in E.
  destruct (kernel_loop code_ops (d :: v2) d (seq 1 (length (d :: v2) - 1)) s0) as [[s|]|e]; [|discriminate|discriminate]. cbn [bind] in E.
  destruct (first_rows_nodup [] (xk s)) as [N _]. destruct (first_rows code_ops [] (xk s)) as [|p [|q [|r l]]]; cbn in E; try discriminate; injection E as <-.
  - split; [constructor|now left].
  - split; [exact N|right; cbn; lia].
Qed.
Print Assumptions C98_form.

(** *** C99 *)
(** shapely on a convex counter-clockwise ring: contains is the open inside *)
Definition contains_inside (contains : list Pt -> Pt -> bool) : Prop :=
  forall k x, convex_ccw k -> (contains k x = true <-> strictly_left_of_all k x).
Definition rep_inside (rep : list Pt -> Pt) : Prop := forall k, convex_ccw k -> left_of_all k (rep k).
Lemma init_inside contains centroid rep v k : contains_inside contains -> rep_inside rep -> compute_kernel v = Ret (Some k) -> convex_ccw k ->
  exists x, init_xr contains centroid rep None v = Ret x /\ left_of_all k x.
Proof.
  intros C P E K. unfold init_xr. rewrite E. cbn [bind]. destruct (contains k (centroid k)) eqn:D; eexists; (split; [reflexivity|]).
  - apply C in D; [|exact K]. intros a b I. left. exact (D a b I).
  - apply P, K.
Qed.
Theorem C99_dart_partial : forall contains centroid rep (o a b c p q : Pt), contains_inside contains -> rep_inside rep ->
  area2 c o a < - TH -> TH < area2 o a b -> TH < area2 b c o ->
  dist a b <= 150 -> dist b c <= 150 -> dist c a <= 150 ->
  on_line a b p -> on_line o c p -> on_line b c q -> on_line o a q ->
  dist b c / 10 <= area2 p b c -> 1 / 10 <= dist q c ->
  forall v, In v [[o; a; b; c]; [a; b; c; o]; [b; c; o; a]; [c; o; a; b]] ->
  encloses v (quad o a b c) /\ exists x, init_xr contains centroid rep None v = Ret x /\ kernel_of (quad o a b c) x.
Proof.
  intros co ce re o a b c p q C P H1 H2 H3 H4 H5 H6 H7 H8 H9 H10 H11 H12 v I.
  destruct (C97_dart_partial o a b c p q H1 H2 H3 H4 H5 H6 H7 H8 H9 H10 H11 H12 v I) as (k & A & B & E & D). split; [exact E|].
  destruct (init_inside co ce re v k C P A B) as (x & X & L). exists x. split; [exact X|now apply D].
Qed.
Print Assumptions C99_dart_partial.
Theorem C99_convex_partial : forall contains centroid rep (v : list Pt), contains_inside contains -> rep_inside rep -> convex_ccw v ->
  (forall i, (i < length v)%nat -> Rabs (turn v i) <> TH) -> (exists i, (i + 1 < length v)%nat /\ TH <= Rabs (turn v i)) ->
  exists x, init_xr contains centroid rep None v = Ret x /\ kernel_of (left_of_all v) x.
Proof.
  intros co ce re v C P K H E. destruct (C52_convexity_partial v H) as [A B]. destruct (proj2 A E) as [b Hb]. destruct (B b Hb) as [_ [T _]].
  assert (X : compute_kernel v = Ret (Some v)) by (unfold compute_kernel; rewrite Hb, (T K); reflexivity).
  destruct (init_inside co ce re v v C P X K) as (x & X1 & L). exists x. split; [exact X1|now apply left_kernel_all].
Qed.
Print Assumptions C99_convex_partial.
(** such functions exist *)
Definition contains_real (k : list Pt) (x : Pt) : bool := forallb (fun e => Rltb 0 (area2 (fst e) (snd e) x)) (cyc_edges k).
Example C99_example : contains_inside contains_real /\ rep_inside (hd (0, 0)).
Proof.
  split.
  - intros k x _. unfold contains_real, strictly_left_of_all. rewrite forallb_forall. split.
    + intros H a b I. apply (proj1 (Rltb_true _ _) (H (a, b) I)).
    + intros H [a b] I. apply Rltb_true. exact (H a b I).
  - intros k K a b I. destruct k as [|p k]; [destruct I|]. apply K; [exact I|]. now left.
Qed.
Theorem C99_attribute_refuted : exists v A z, encloses v A /\ kernel_of A z /\ forall contains centroid rep, init_xr contains centroid rep None v = Exn AttributeErr.
Proof.
  destruct C98_none_refuted as (v & A & z & E & K & _ & N). exists v, A, z. split; [exact E|]. split; [exact K|]. intros. unfold init_xr. rewrite N. reflexivity.
Qed.
Print Assumptions C99_attribute_refuted.
(** with shapely's centroid, the centre of area *)
Definition out_dart : list (pt Q) := [(-36, 0); (-36, 174); (-180, -96); (0, 0)]%Q.
Definition out_kernel : list (pt Q) := match q_kernel out_dart with Ret (Some k) => k | _ => [] end.
Lemma out_run : compute_kernel (map qp out_dart) = Ret (Some (map qp out_kernel)).
Proof. rewrite compute_kernel_Q by (vm_compute; reflexivity). unfold out_kernel. vm_compute (q_kernel out_dart). reflexivity. Qed.
Definition qcross (p q : pt Q) : Q := (fst p * snd q - snd p * fst q)%Q.
Definition qsum (l : list Q) : Q := fold_right Qplus 0%Q l.
Definition q_centre (v : list (pt Q)) : pt Q :=
  let w := qsum (map (fun e => qcross (fst e) (snd e)) (cyc_edges v)) in
  let m f := (qsum (map (fun e => (f (fst e) + f (snd e)) * qcross (fst e) (snd e)) (cyc_edges v)) / (3 * w))%Q in
  (m fst, m snd).
Lemma qsum_R {A} (f : A -> Q) (g : A -> R) l : (forall a, g a = Q2R (f a)) -> rsum (map g l) = Q2R (qsum (map f l)).
Proof. intros E. induction l as [|a l IH]; cbn; [unfold Q2R; cbn; lra|]. rewrite Q2R_plus, E. f_equal. exact IH. Qed.
Lemma centre_Q v : ~ (3 * qsum (map (fun e => qcross (fst e) (snd e)) (cyc_edges v)) == 0)%Q -> area_centre (map qp v) = qp (q_centre v).
Proof.
  intros N. unfold area_centre, q_centre. cbv zeta. rewrite cyc_map, !map_map. match goal with |- _ = qp (?a, ?b) => change (qp (a, b)) with (Q2R a, Q2R b) end.
  assert (X : forall p q : pt Q, cross (qp p) (qp q) = Q2R (qcross p q)).
  { intros p q. unfold cross, qp, qcross. cbn [fst snd]. now rewrite Q2R_minus, !Q2R_mult. }
  assert (W : rsum (map (fun e : pt Q * pt Q => cross (qp (fst e)) (qp (snd e))) (cyc_edges v)) = Q2R (qsum (map (fun e => qcross (fst e) (snd e)) (cyc_edges v)))).
  { apply qsum_R. intros e. apply X. }
  cbn [fst snd]. apply pair_eq.
  - rewrite Q2R_div by exact N. rewrite Q2R_mult. replace (Q2R 3) with 3 by (unfold Q2R; cbn; lra). rewrite <- W. f_equal.
    apply qsum_R. intros e. rewrite Q2R_mult, Q2R_plus, <- X. reflexivity.
  - rewrite Q2R_div by exact N. rewrite Q2R_mult. replace (Q2R 3) with 3 by (unfold Q2R; cbn; lra). rewrite <- W. f_equal.
    apply qsum_R. intros e. rewrite Q2R_mult, Q2R_plus, <- X. reflexivity.
Qed.
Definition all_strict (v : list (pt Q)) (x : pt Q) : bool := forallb (fun e => posb (areaQ (fst e) (snd e) x)) (cyc_edges v).
Lemma all_strict_left v x : all_strict v x = true -> strictly_left_of_all (map qp v) (qp x).
Proof.
  unfold strictly_left_of_all, all_strict. rewrite forallb_forall, cyc_map. intros H a b I.
  apply in_map_iff in I as ([a' b'] & E & I). injection E as <- <-. specialize (H _ I). cbn [fst snd] in *. apply posb_R in H. now rewrite areaQ_R.
Qed.
Lemma init_centre contains centroid rep v k x : compute_kernel v = Ret (Some k) -> centroid k = x -> contains k x = true ->
  init_xr contains centroid rep None v = Ret x.
Proof. intros E <- H. unfold init_xr. rewrite E. cbn [bind]. now rewrite H. Qed.
Lemma out_centre : area_centre (map qp out_kernel) = qp (q_centre out_kernel).
Proof. apply centre_Q. vm_compute. discriminate. Qed.
Lemma out_convex : convex_ccw (map qp out_kernel).
Proof. apply ccwQ_convex. vm_compute. reflexivity. Qed.
Lemma out_strict : strictly_left_of_all (map qp out_kernel) (qp (q_centre out_kernel)).
Proof. apply all_strict_left. vm_compute. reflexivity. Qed.
Theorem C99_outside_refuted : exists v A z, encloses v A /\ kernel_of A z /\ forall contains rep, contains_inside contains ->
  exists x, init_xr contains area_centre rep None v = Ret x /\ ~ A x.
Proof.
  exists (map qp out_dart), (quad (qp (-36, 0)%Q) (qp (-36, 174)%Q) (qp (-180, -96)%Q) (qp (0, 0)%Q)), (qp (-36, 0)%Q).
  destruct (dart_facts (-36, 0)%Q (-36, 174)%Q (-180, -96)%Q (0, 0)%Q eq_refl eq_refl eq_refl) as [E K].
  split; [exact E|]. split; [apply K; apply (all_left_iff out_dart); vm_compute; reflexivity|].
  intros co re C. exists (qp (q_centre out_kernel)). split.
  - apply (init_centre _ _ _ _ _ _ out_run out_centre). apply C; [exact out_convex|exact out_strict].
  - rewrite quad_dec. vm_compute. discriminate.
Qed.
Print Assumptions C99_outside_refuted.
