(** Properties C112-C114: the turn tests, the segment crossing test and convex_hull of utils/cg.py in binary64 arithmetic. *)
From Coq Require Import ZArith QArith Qreals Reals SpecFloat Bool Lia Lra List.
From Verif Require Import Num Spec L_Geom M_Cg L_Cg M_Hull M_Float S_Float L_Float L_FloatCmp L_FloatCg L_FloatGrid W_Hull W_PolTransfer W_PolTriangles P_Hull.
Import ListNotations.
Local Open Scope R_scope.

(** *** binary64 numbers as rationals, for the concrete cases *)
Definition b64q (f : b64) : Q :=
  match f with S754_finite s m e => Qmult (if s then Zneg m # 1 else Zpos m # 1) (match e with Zneg d => 1 # 2 ^ d | Z0 => 1 | Zpos d => Zpos (2 ^ d) # 1 end) | _ => 0 end.
Lemma b64q_R f : bval f = Q2R (b64q f).
Proof.
  destruct f as [s|s| |s m e]; cbn [bval b64q]; try (unfold Q2R; cbn; lra). rewrite Q2R_mult.
  assert (Q2R (match e with Zneg d => 1 # 2 ^ d | Z0 => 1 | Zpos d => Zpos (2 ^ d) # 1 end)%Q = p2 e) as ->.
  { destruct e as [|d|d].
    - rewrite p2_0. unfold Q2R. cbn. lra.
    - rewrite p2_Z by lia. unfold Q2R. cbn [Qnum Qden]. rewrite Rinv_1, Rmult_1_r, Pos2Z.inj_pow. reflexivity.
    - change (Zneg d) with (- Zpos d)%Z. rewrite p2_inv, p2_Z by lia. unfold Q2R. cbn [Qnum Qden]. rewrite Rmult_1_l, Pos2Z.inj_pow. reflexivity. }
  destruct s; unfold Q2R; cbn [Qnum Qden]; rewrite ?Rinv_1, ?Rmult_1_r; [|reflexivity]. change (Zneg m) with (- Zpos m)%Z. rewrite opp_IZR. reflexivity.
Qed.
Definition bqp (p : pt b64) : pt Q := (b64q (fst p), b64q (snd p)).
Lemma bqp_R p : bpt p = qp (bqp p). Proof. unfold bpt, qp, bqp. cbn [fst snd]. rewrite !b64q_R. reflexivity. Qed.
Definition fin_ptb (p : pt b64) : bool := let f x := match x with S754_zero _ => true | S754_finite _ _ _ => valid_binary 53 1024 x | _ => false end in f (fst p) && f (snd p).
Lemma fin_ptb_R p : fin_ptb p = true -> bfin_pt p.
Proof. unfold fin_ptb, bfin_pt. intros H. apply andb_prop in H as (H1 & H2). split; [destruct (fst p)|destruct (snd p)]; cbn in *; auto; discriminate. Qed.
Definition withinb (M : Q) (p : pt b64) : bool := let f x := Qle_bool (b64q x) M && Qle_bool (- M) (b64q x) in f (fst p) && f (snd p).
Lemma withinb_R M p : withinb M p = true -> within (Q2R M) p.
Proof.
  unfold withinb, within. intros H. apply andb_prop in H as (H1 & H2). apply andb_prop in H1 as (A1 & A2), H2 as (A3 & A4). apply Qle_bool_iff, Qle_Rle in A1, A2, A3, A4. rewrite Q2R_opp in A2, A4.
  rewrite !b64q_R. split; apply Rabs_le; lra.
Qed.

(** C112: the computed orientation value is within 33 M^2 2^-53 of the exact one *)
Theorem C112_orientation_error : forall M a b c, 1 <= M -> M <= p2 400 ->
  bfin_pt a -> bfin_pt b -> bfin_pt c -> within M a -> within M b -> within M c ->
  bfin (orientation_val a b c) /\ Rabs (bval (orientation_val a b c) + area2 (bpt a) (bpt b) (bpt c)) <= 33 * (M * M) * / 2 ^ 53.
Proof.
  intros M a b c M1 M2 Fa Fb Fc Wa Wb Wc. destruct (orient_err M a b c) as (F & E); auto.
Qed.
Print Assumptions C112_orientation_error.
(** with coordinates of magnitude at most 160 no turn is reported that is not there, and every turn beyond twice the threshold is reported *)
Theorem C112_turn_tests : forall a b c, bfin_pt a -> bfin_pt b -> bfin_pt c -> within 160 a -> within 160 b -> within 160 c ->
  (is_ccw a b c = true -> 0 < area2 (bpt a) (bpt b) (bpt c)) /\ (is_cw a b c = true -> area2 (bpt a) (bpt b) (bpt c) < 0) /\
  (is_collinear a b c = true -> Rabs (area2 (bpt a) (bpt b) (bpt c)) < 2 * TH) /\
  (2 * TH <= area2 (bpt a) (bpt b) (bpt c) -> is_ccw a b c = true) /\ (area2 (bpt a) (bpt b) (bpt c) <= - 2 * TH -> is_cw a b c = true) /\
  (area2 (bpt a) (bpt b) (bpt c) = 0 -> is_collinear a b c = true).
Proof.
  intros a b c Fa Fb Fc Wa Wb Wc. assert (B : 160 <= p2 400). { apply Rle_trans with (p2 8); [rewrite p2_Z by lia; simpl; lra|apply p2_le; lia]. }
  destruct (orient_err 160 a b c ltac:(lra) B Fa Fb Fc Wa Wb Wc) as (F & E). rewrite is_ccw_B, is_cw_B, is_col_B by auto.
  pose proof u_val as U. pose proof th_near as T. assert (E' : Rabs (bval (orientation_val a b c) + area2 (bpt a) (bpt b) (bpt c)) < 0.95 * TH) by (unfold TH; lra).
  apply Rabs_def2 in E' as (E1 & E2). pose proof TH_pos. set (v := bval (orientation_val a b c)) in *. set (A := area2 _ _ _) in *. set (th := bval _) in *.
  unfold Rltb. split; [|split; [|split; [|split; [|split]]]]; intros Q.
  - destruct (Rlt_dec _ _) in Q; [lra|discriminate].
  - destruct (Rlt_dec _ _) in Q; [lra|discriminate].
  - destruct (Rlt_dec _ _) as [L|] in Q; [|discriminate]. apply Rabs_def2 in L. apply Rabs_def1; lra.
  - destruct (Rlt_dec _ _); [reflexivity|lra].
  - destruct (Rlt_dec _ _); [reflexivity|lra].
  - destruct (Rlt_dec _ _) as [|L]; [reflexivity|]. destruct L. apply Rabs_def1; lra.
Qed.
Print Assumptions C112_turn_tests.
(** 300 is too large: a counterclockwise turn is reported for three points that turn clockwise *)
Definition far_a : pt b64 := (S754_finite true 4613868267867555 (-44), S754_finite true 4961960129308292 (-44)).
Definition far_b : pt b64 := (S754_finite false 4769856887614839 (-44), S754_finite false 5049120225850827 (-44)).
Definition far_c : pt b64 := (S754_finite true 8821123074343137 (-45), S754_finite true 4745061191624350 (-44)).
Theorem C112_large_refuted : exists a b c, bfin_pt a /\ bfin_pt b /\ bfin_pt c /\ within 300 a /\ within 300 b /\ within 300 c /\
  is_ccw a b c = true /\ area2 (bpt a) (bpt b) (bpt c) < 0.
Proof.
  exists far_a, far_b, far_c. assert (Q3 : 300 = Q2R 300) by (unfold Q2R; cbn; lra). rewrite Q3. repeat (split; [apply fin_ptb_R; reflexivity|]). repeat (split; [apply withinb_R; vm_compute; reflexivity|]).
  split; [vm_compute; reflexivity|]. rewrite !bqp_R, areaQ_R. replace 0 with (Q2R 0) by (unfold Q2R; cbn; lra). apply Qlt_Rlt. vm_compute. reflexivity.
Qed.
Print Assumptions C112_large_refuted.
(** 0.1, 0.2, 0.3, 0.4, 0.7, 0.9 *)
Definition f01 : b64 := S754_finite false 7205759403792794 (-56). Definition f02 : b64 := S754_finite false 7205759403792794 (-55).
Definition f03 : b64 := S754_finite false 5404319552844595 (-54). Definition f04 : b64 := S754_finite false 7205759403792794 (-54).
Definition f07 : b64 := S754_finite false 6305039478318694 (-53). Definition f09 : b64 := S754_finite false 8106479329266893 (-53).
(** 0.1, 0.2, 0.3 on a diagonal: the differences are rounded, the points are reported collinear *)
Example C112_example : let a := (f01, f01) in let b := (f02, f02) in let c := (f03, f04) in
  bfin_pt a /\ bfin_pt b /\ bfin_pt c /\ within 160 a /\ within 160 b /\ within 160 c /\ is_ccw a b c = true /\ is_cw b a c = true /\ is_collinear a b (f09, f09) = true /\
  f01 = nlit (1 # 10) /\ f02 = nlit (2 # 10) /\ f03 = nlit (3 # 10) /\ f04 = nlit (4 # 10) /\ f07 = nlit (7 # 10) /\ f09 = nlit (9 # 10).
Proof.
  intros a b c. repeat (split; [apply fin_ptb_R; reflexivity|]). assert (Q3 : 160 = Q2R 160) by (unfold Q2R; cbn; lra). rewrite Q3. repeat (split; [apply withinb_R; vm_compute; reflexivity|]).
  repeat split; vm_compute; reflexivity.
Qed.

(** C113: coordinates k 2^-s with |k| < 2^25 lose nothing: exact orientation values *)
Theorem C113_orientation_exact : forall s a b c, (0 <= s <= 500)%Z -> on_grid_pt s a -> on_grid_pt s b -> on_grid_pt s c ->
  bfin (orientation_val a b c) /\ bval (orientation_val a b c) = orientation_val (bpt a) (bpt b) (bpt c).
Proof. intros s a b c Hs Ga Gb Gc. destruct (orient_exact s a b c Hs Ga Gb Gc) as ((F & _) & V). rewrite ov_R. auto. Qed.
Print Assumptions C113_orientation_exact.
(** and for s at most 40 the tests answer as in exact arithmetic *)
Theorem C113_tests_exact : forall s, (0 <= s <= 40)%Z ->
  (forall a b c, on_grid_pt s a -> on_grid_pt s b -> on_grid_pt s c ->
     is_ccw a b c = is_ccw (bpt a) (bpt b) (bpt c) /\ is_cw a b c = is_cw (bpt a) (bpt b) (bpt c) /\ is_collinear a b c = is_collinear (bpt a) (bpt b) (bpt c)) /\
  (forall a b c d, on_grid_pt s a -> on_grid_pt s b -> on_grid_pt s c -> on_grid_pt s d -> intersect a b c d = intersect (bpt a) (bpt b) (bpt c) (bpt d)) /\
  (forall fuel points, points <> [] -> (forall p, In p points -> on_grid_pt s p) ->
     (convex_hull fuel points = HullRunning <-> convex_hull fuel (map bpt points) = HullRunning) /\
     forall h, convex_hull fuel points = Hull h -> convex_hull fuel (map bpt points) = Hull (map bpt h)).
Proof.
  intros s Hs. split; [|split].
  - intros. apply (tests_grid s); auto.
  - intros a b c d Ga Gb Gc Gd. unfold intersect. f_equal; f_equal; apply (tests_grid s); auto.
  - intros fuel P NE G. assert (E : convex_hull fuel (map bpt P) = out_bpt (convex_hull fuel P)).
    { apply hull_eq; auto. { intros p Hp. destruct (G p Hp) as ((F1 & _) & (F2 & _)). split; auto. } intros p q r Hp Hq Hr. apply (tests_grid s); auto. }
    rewrite E. split; [destruct (convex_hull fuel P); cbn; split; congruence|]. intros h ->. reflexivity.
Qed.
Print Assumptions C113_tests_exact.
(** not for every binary64 number: the number 1e-10 is larger than the decimal, and (0,0), (1,0), (1,1e-10) do not turn in binary64 *)
Theorem C113_off_grid_refuted : exists a b c, bfin_pt a /\ bfin_pt b /\ bfin_pt c /\ within 1 a /\ within 1 b /\ within 1 c /\
  bval (orientation_val a b c) = orientation_val (bpt a) (bpt b) (bpt c) /\ is_ccw a b c <> is_ccw (bpt a) (bpt b) (bpt c).
Proof.
  exists (n0, n0), (n1, n0), (n1, COLLINEAR_THRESHOLD). repeat (split; [apply fin_ptb_R; vm_compute; reflexivity|]).
  assert (Q3 : 1 = Q2R 1) by (unfold Q2R; cbn; lra). rewrite Q3 at 1 2 3. repeat (split; [apply withinb_R; vm_compute; reflexivity|]).
  split.
  - rewrite ov_R, !bqp_R, areaQ_R, b64q_R, <- Q2R_opp. apply Qeq_eqR. vm_compute. reflexivity.
  - rewrite !bqp_R, t_is_ccw. vm_compute. discriminate.
Qed.
Print Assumptions C113_off_grid_refuted.
Definition gp (x y : Z) : pt b64 := (binary_normalize 53 1024 x (-16) false, binary_normalize 53 1024 y (-16) false).
Lemma gp_grid x y : (Z.abs x < 2 ^ 25)%Z -> (Z.abs y < 2 ^ 25)%Z -> on_grid_pt 16 (gp x y).
Proof.
  intros Hx Hy. split; cbn [gp fst snd]; [destruct (normalize_near x (-16) false) as (F & _ & X)|destruct (normalize_near y (-16) false) as (F & _ & X)]; try (apply (gr_small 16); lia).
  - split; auto. exists x. split; auto. apply (X x 16%Z); auto; lia.
  - split; auto. exists y. split; auto. apply (X y 16%Z); auto; lia.
Qed.
Example C113_example : let P := [gp 0 0; gp 65536 0; gp 65537 65536; gp 0 65539; gp 30000 30001] in
  (forall p, In p P -> on_grid_pt 16 p) /\ convex_hull 5 P = Hull [gp 0 65539; gp 0 0; gp 65536 0; gp 65537 65536] /\
  intersect (gp 0 0) (gp 65537 65536) (gp 65536 0) (gp 0 65539) = true.
Proof.
  intros P. split; [|split; vm_compute; reflexivity]. intros p Hp. repeat destruct Hp as [<-|Hp]; try (apply gp_grid; reflexivity). destruct Hp.
Qed.

(** C114: with coordinates of magnitude at most 160 and no turn below twice the threshold, the hull computed in binary64 is the hull *)
Theorem C114_hull : forall points, points <> [] -> (forall p, In p points -> bfin_pt p /\ within 160 p) ->
  NoDup (map bpt points) -> (forall a b c, In a (map bpt points) -> In b (map bpt points) -> In c (map bpt points) -> a <> b -> b <> c -> a <> c -> 2 * TH <= Rabs (area2 a b c)) ->
  exists h, (forall fuel, (length points <= fuel)%nat -> convex_hull fuel points = Hull h) /\ incl h points /\ NoDup (map bpt h) /\
    (exists p rest, h = p :: rest /\ leftmost_topmost (map bpt points) (bpt p)) /\
    (forall a b, In (a, b) (cyc_edges (map bpt h)) -> forall r, In r (map bpt points) -> r <> a -> r <> b -> TH < area2 a b r) /\
    ((3 <= length points)%nat -> forall q, in_hull (map bpt h) q <-> in_hull (map bpt points) q).
Proof.
  intros P NE FW ND Far. pose proof TH_pos as TP. assert (FP : forall p, In p P -> bfin_pt p) by (intros p Hp; apply FW; auto). assert (WP : forall p, In p P -> within 160 p) by (intros p Hp; apply FW; auto).
  assert (AP : forall p q r, In p P -> In q P -> In r P -> is_ccw p q r = is_ccw (bpt p) (bpt q) (bpt r)).
  { intros p q r Hp Hq Hr. destruct (C112_turn_tests p q r) as (T1 & T2 & _ & T4 & T5 & _); auto. apply bool_iff. rewrite is_ccw_iff.
    assert (D : area2 (bpt p) (bpt q) (bpt r) = 0 \/ 2 * TH <= Rabs (area2 (bpt p) (bpt q) (bpt r))).
    { destruct (pt_dec (bpt p) (bpt q)) as [->|D1]; [left; unv; ring|]. destruct (pt_dec (bpt q) (bpt r)) as [->|D2]; [left; unv; ring|]. destruct (pt_dec (bpt p) (bpt r)) as [->|D3]; [left; unv; ring|].
      right. apply Far; auto using in_map. }
    split; intros H.
    - specialize (T1 H). destruct D as [D|D]; [lra|]. rewrite Rabs_pos_eq in D; lra.
    - destruct D as [D|D]; [lra|]. rewrite Rabs_pos_eq in D by lra. auto. }
  assert (GP : general_position (map bpt P)). { split; auto. intros a b c Ha Hb Hc N1 N2 N3. pose proof (Far a b c Ha Hb Hc N1 N2 N3). lra. }
  assert (NE' : map bpt P <> []) by (destruct P; [congruence|discriminate]).
  destruct (C13_convex_hull_correct _ NE' GP) as (h' & Run & (p' & rest' & Hh & LT) & NDh & Inc & Edge & Hul).
  assert (Run' : forall fuel, (length P <= fuel)%nat -> Hull h' = out_bpt (convex_hull fuel P)). { intros fuel Hf. rewrite <- hull_eq; auto. symmetry. apply Run. rewrite map_length. auto. }
  destruct (convex_hull (length P) P) as [| |h] eqn:EH; pose proof (Run' (length P) (le_n _)) as E0; rewrite EH in E0; cbn in E0; try discriminate. injection E0 as E0.
  exists h. rewrite <- E0.
  assert (Sub : incl h P) by (apply (any_hull_in P (length P) h EH)).
  split.
  { intros fuel Hf. apply (any_hull_fuel P _ h EH). auto. }
  split; [exact Sub|]. split; [exact NDh|]. split.
  { destruct h as [|p rest]; [subst h'; discriminate|]. exists p, rest. split; auto. subst h'. injection E0 as E1 E2. subst p'. exact LT. }
  split; [exact Edge|]. intros L q. apply Hul. rewrite map_length. exact L.
Qed.
Print Assumptions C114_hull.
(** the four points (0.1,0.2), (0.7,0.3), (0.4,0.9), (0.3,0.4): a triangle with a point inside *)
Definition farb (l : list (pt Q)) : bool :=
  forallb (fun a => forallb (fun b => forallb (fun c =>
    (Qeq_bool (fst a) (fst b) && Qeq_bool (snd a) (snd b)) || (Qeq_bool (fst b) (fst c) && Qeq_bool (snd b) (snd c)) || (Qeq_bool (fst a) (fst c) && Qeq_bool (snd a) (snd c)) ||
    Qle_bool (2 # 10000000000) (areaQ a b c) || Qle_bool (2 # 10000000000) (- areaQ a b c)) l) l) l.
Lemma qp_eqb a b : (Qeq_bool (fst a) (fst b) && Qeq_bool (snd a) (snd b) = true)%bool -> qp a = qp b.
Proof. intros H. apply andb_prop in H as (H1 & H2). apply Qeq_bool_eq, Qeq_eqR in H1, H2. unfold qp. congruence. Qed.
Lemma farb_R l : farb l = true -> forall a b c, In a (map qp l) -> In b (map qp l) -> In c (map qp l) -> a <> b -> b <> c -> a <> c -> 2 * TH <= Rabs (area2 a b c).
Proof.
  intros H a b c Ha Hb Hc N1 N2 N3. apply in_map_iff in Ha as (a' & <- & Ha), Hb as (b' & <- & Hb), Hc as (c' & <- & Hc).
  unfold farb in H. rewrite forallb_forall in H. specialize (H a' Ha). rewrite forallb_forall in H. specialize (H b' Hb). rewrite forallb_forall in H. specialize (H c' Hc).
  rewrite areaQ_R. assert (E2 : 2 * TH = Q2R (2 # 10000000000)) by (unfold TH, Q2R; cbn; lra). rewrite E2. rewrite !orb_true_iff in H. destruct H as [[[[H|H]|H]|H]|H].
  - destruct N1. apply qp_eqb; auto. - destruct N2. apply qp_eqb; auto. - destruct N3. apply qp_eqb; auto.
  - apply Qle_bool_iff, Qle_Rle in H. apply Rle_trans with (1 := H). apply Rle_abs.
  - apply Qle_bool_iff, Qle_Rle in H. apply Rle_trans with (1 := H). rewrite Q2R_opp, <- Rabs_Ropp. apply Rle_abs.
Qed.
Definition four : list (pt b64) := [(f03, f04); (f01, f02); (f07, f03); (f04, f09)].
Example C114_example : (forall p, In p four -> bfin_pt p /\ within 160 p) /\ NoDup (map bpt four) /\
  (forall a b c, In a (map bpt four) -> In b (map bpt four) -> In c (map bpt four) -> a <> b -> b <> c -> a <> c -> 2 * TH <= Rabs (area2 a b c)) /\
  convex_hull 4 four = Hull [(f01, f02); (f07, f03); (f04, f09)].
Proof.
  assert (E : map bpt four = map qp (map bqp four)) by (rewrite map_map; apply map_ext; apply bqp_R).
  split; [|split; [|split]].
  - assert (Q3 : 160 = Q2R 160) by (unfold Q2R; cbn; lra). rewrite Q3. intros p Hp. repeat destruct Hp as [<-|Hp]; try (split; [apply fin_ptb_R; reflexivity|apply withinb_R; vm_compute; reflexivity]). destruct Hp.
  - assert (D : forall p q, Qeq_bool (fst (bqp p)) (fst (bqp q)) = false -> bpt p <> bpt q).
    { intros p q H K. rewrite !bqp_R in K. apply (f_equal fst) in K. cbn [qp fst] in K. apply eqR_Qeq in K. apply Qeq_bool_neq in H. auto. }
    unfold four. cbn [map]. repeat constructor; cbn [In]; intros H; repeat destruct H as [H|H]; try (revert H; apply D; vm_compute; reflexivity); auto.
  - rewrite E. apply farb_R. vm_compute. reflexivity.
  - vm_compute. reflexivity.
Qed.
