(** The kernel scan computed over Q: same answers as over R for polygons with rational edge lengths. *)
From Coq Require Import QArith Qreals Reals Lra Psatz List Bool Arith ZArith Lia.
From Verif Require Import Num Spec M_Cg M_Motion M_Obstacle M_Polygon M_PolHull M_Kernel L_Geom L_Cg W_PolTransfer L_KernelSim.
Import ListNotations.

(** sqrt A + sqrt B <= alpha + gamma sqrt C, decided with field operations *)
Section Dec.
  Context {T : Type} {N : Num T}.
  Local Open Scope num_scope.
  Definition root_le (A B C al ga : T) : bool :=
    let D := al * al + ga * ga * C - A - B in
    let X := nlit 4 * A * B in
    let Y := nlit 4 * (al * al) * (ga * ga) * C in
    if nlit 0 <=? D then
      let E := X - D * D - Y in (E <=? nlit 0) || (E * E <=? nlit 4 * (D * D) * Y)
    else
      let G := Y - X - D * D in (nlit 0 <=? G) && (nlit 4 * (D * D) * X <=? G * G).
  Definition sqd (a b : pt T) : T :=
    (fst a - fst b) * (fst a - fst b) + (snd a - snd b) * (snd a - snd b).
  Definition between_dec (a b c : pt T) : bool :=
    root_le (sqd a b) (sqd c b) (sqd a c) (nlit (1 # 100000000)) (nlit (10000001 # 10000000)).
End Dec.

Local Open Scope R_scope.
Lemma sqrt_cmp D x y : 0 <= x -> 0 <= y ->
  (x <= D + y <->
   if Rle_dec 0 D then (x * x - D * D - y * y <= 0 \/ (x * x - D * D - y * y) * (x * x - D * D - y * y) <= 4 * (D * D) * (y * y))
   else (0 <= y * y - x * x - D * D /\ 4 * (D * D) * (x * x) <= (y * y - x * x - D * D) * (y * y - x * x - D * D))).
Proof.
  intros Hx Hy. destruct (Rle_dec 0 D) as [HD|HD].
  - split.
    + intros H. set (E := x * x - D * D - y * y). destruct (Rle_dec E 0) as [|HE]; [left; lra|right].
      assert (E <= 2 * (D * y)). { unfold E. assert (x * x <= (D + y) * (D + y)) by (apply Rmult_le_compat; lra). lra. }
      replace (4 * (D * D) * (y * y)) with (2 * (D * y) * (2 * (D * y))) by ring. apply Rmult_le_compat; lra.
    + intros H. assert (K : x * x - D * D - y * y <= 2 * (D * y)).
      { pose proof (Rmult_le_pos _ _ HD Hy). destruct H as [H|H]; [lra|].
        apply Rnot_lt_le. intros L. assert (2 * (D * y) * (2 * (D * y)) < (x * x - D * D - y * y) * (x * x - D * D - y * y)) by (apply Rmult_le_0_lt_compat; lra).
        replace (4 * (D * D) * (y * y)) with (2 * (D * y) * (2 * (D * y))) in H by ring. lra. }
      apply Rnot_lt_le. intros L. assert ((D + y) * (D + y) < x * x) by (apply Rmult_le_0_lt_compat; lra). lra.
  - apply Rnot_le_lt in HD. split.
    + intros H. assert (K : (x - D) * (x - D) <= y * y) by (apply Rmult_le_compat; lra).
      assert (K2 : 2 * (- D * x) <= y * y - x * x - D * D) by lra.
      assert (0 <= - D * x) by (apply Rmult_le_pos; lra). split; [lra|].
      replace (4 * (D * D) * (x * x)) with (2 * (- D * x) * (2 * (- D * x))) by ring. apply Rmult_le_compat; lra.
    + intros [H1 H2]. assert (0 <= - D * x) by (apply Rmult_le_pos; lra).
      assert (K : 2 * (- D * x) <= y * y - x * x - D * D).
      { apply Rnot_lt_le. intros L.
        assert ((y * y - x * x - D * D) * (y * y - x * x - D * D) < 2 * (- D * x) * (2 * (- D * x))) by (apply Rmult_le_0_lt_compat; lra).
        replace (4 * (D * D) * (x * x)) with (2 * (- D * x) * (2 * (- D * x))) in H2 by ring. lra. }
      apply Rnot_lt_le. intros L. assert (y * y < (x - D) * (x - D)) by (apply Rmult_le_0_lt_compat; lra). lra.
Qed.

Lemma root_le_R A B C al ga : 0 <= A -> 0 <= B -> 0 <= C -> 0 <= al -> 0 <= ga ->
  root_le (N := NumR) A B C al ga = true <-> sqrt A + sqrt B <= al + ga * sqrt C.
Proof.
  intros HA HB HC Hal Hga.
  pose proof (sqrt_pos A) as pA. pose proof (sqrt_pos B) as pB. pose proof (sqrt_pos C) as pC.
  pose proof (sqrt_def A HA) as sA. pose proof (sqrt_def B HB) as sB. pose proof (sqrt_def C HC) as sC.
  set (a := sqrt A) in *. set (b := sqrt B) in *. set (c := sqrt C) in *.
  pose proof (Rmult_le_pos _ _ pA pB) as pab. pose proof (Rmult_le_pos _ _ Hga pC) as pgc. pose proof (Rmult_le_pos _ _ Hal pgc) as pagc.
  set (D := al * al + ga * ga * C - A - B).
  assert (S1 : a + b <= al + ga * c <-> 2 * (a * b) <= D + 2 * (al * (ga * c))).
  { assert (E1 : (a + b) * (a + b) = A + B + 2 * (a * b)) by (rewrite <- sA, <- sB; ring).
    assert (E2 : (al + ga * c) * (al + ga * c) = al * al + ga * ga * C + 2 * (al * (ga * c))) by (rewrite <- sC; ring).
    unfold D. split; intros H.
    - assert ((a + b) * (a + b) <= (al + ga * c) * (al + ga * c)) by (apply Rmult_le_compat; lra). lra.
    - apply Rnot_lt_le. intros L. assert ((al + ga * c) * (al + ga * c) < (a + b) * (a + b)) by (apply Rmult_le_0_lt_compat; lra). lra. }
  rewrite S1, sqrt_cmp by lra.
  assert (EX : 2 * (a * b) * (2 * (a * b)) = 4 * A * B) by (rewrite <- sA, <- sB; ring).
  assert (EY : 2 * (al * (ga * c)) * (2 * (al * (ga * c))) = 4 * (al * al) * (ga * ga) * C) by (rewrite <- sC; ring).
  rewrite EX, EY.
  unfold root_le. nR. replace (Q2R 4) with 4 by (unfold Q2R; cbn; lra). replace (Q2R 0) with 0 by (unfold Q2R; cbn; lra). fold D.
  destruct (Rleb_spec 0 D) as [HD|HD]; destruct (Rle_dec 0 D) as [HD'|HD']; try lra.
  - rewrite orb_true_iff, !Rleb_true. reflexivity.
  - rewrite andb_true_iff, !Rleb_true. reflexivity.
Qed.

Lemma between_dec_R (a b c : pt R) : between_dec a b c = is_between a b c.
Proof.
  apply eq_true_iff_eq. unfold between_dec. rewrite root_le_R.
  2-4: unfold sqd; nR; apply Rplus_le_le_0_compat; apply Rle_0_sqr.
  2,3: nR; unfold Q2R; cbn; lra.
  unfold is_between, np_isclose. rewrite Rleb_true.
  assert (E : forall p q : pt R, np_norm (psub p q) = sqrt (sqd p q)).
  { intros [p1 p2] [q1 q2]. unfold np_norm, sqd, psub. nR. cbn [fst snd]. reflexivity. }
  rewrite !E.
  assert (Tri : sqrt (sqd a c) <= sqrt (sqd a b) + sqrt (sqd c b)).
  { assert (Ed : forall p q : pt R, sqrt (sqd p q) = dist p q).
    { intros [p1 p2] [q1 q2]. unfold dist, norm, sqd. nR. f_equal. }
    rewrite !Ed. rewrite (dist_sym c b). apply dist_triangle. }
  rewrite Rabs_pos_eq by lra. rewrite Rabs_pos_eq by apply sqrt_pos.
  replace (nlit (1 # 100000000) : R) with (1 / 100000000) by (nR; unfold Q2R; cbn; lra).
  replace (nlit (10000001 # 10000000) : R) with (1 + 1 / 10000000) by (nR; unfold Q2R; cbn; lra).
  split; intros; lra.
Qed.

Local Ltac tq := rewrite ?transfer_add, ?transfer_sub, ?transfer_mul.
Lemma t_root_le (A B C al ga : Q) : root_le (Q2R A) (Q2R B) (Q2R C) (Q2R al) (Q2R ga) = root_le A B C al ga.
Proof.
  unfold root_le. cbn zeta. rewrite !transfer_leb. repeat (tq). reflexivity.
Qed.
Lemma t_sqd (a b : pt Q) : sqd (qp a) (qp b) = Q2R (sqd a b).
Proof. unfold sqd, qp. cbn [fst snd]. tq. tq. reflexivity. Qed.
Lemma t_between (a b c : pt Q) : is_between (qp a) (qp b) (qp c) = between_dec a b c.
Proof. rewrite <- between_dec_R. unfold between_dec. rewrite !t_sqd. apply t_root_le. Qed.

(** get_intersection over Q *)
Definition q_gi (a1 a2 b1 b2 : pt Q) : option (pt Q) :=
  if negb (intersect a1 a2 b1 b2) then
    if between_dec b1 a1 b2 then Some a1
    else if between_dec b1 a2 b2 then Some a2
    else if between_dec a1 b1 a2 then Some b1
    else if between_dec a1 b2 a2 then Some b2
    else None
  else Some (crossing_point a1 a2 b1 b2).
Lemma t_crossing (a b c d : pt Q) : intersect a b c d = true -> crossing_point (qp a) (qp b) (qp c) (qp d) = qp (crossing_point a b c d).
Proof.
  intros H. rewrite <- q2r_intersect in H. apply intersect_denom in H.
  assert (E : crossing_denom (qp a) (qp b) (qp c) (qp d) = Q2R (crossing_denom a b c d)).
  { unfold crossing_denom, qp. cbn [fst snd]. rewrite !transfer_add, !transfer_mul, !transfer_opp, !transfer_sub. reflexivity. }
  change (crossing_denom (qp a) (qp b) (qp c) (qp d) <> 0) in H. rewrite E in H.
  assert (H' : ~ (crossing_denom a b c d == 0)%Q). { intros X. apply H. rewrite (Qeq_eqR _ _ X). apply Q2R_0. }
  unfold crossing_point. rewrite E. unfold qp. cbn [fst snd].
  rewrite !transfer_add, !transfer_mul, !transfer_div by exact H'.
  assert (E2 : crossing_num (qp a) (qp b) (qp c) = Q2R (crossing_num a b c)).
  { unfold crossing_num, qp. cbn [fst snd]. rewrite !transfer_add, !transfer_mul, !transfer_opp, !transfer_sub. reflexivity. }
  change (crossing_num (Q2R (fst a), Q2R (snd a)) (Q2R (fst b), Q2R (snd b)) (Q2R (fst c), Q2R (snd c))) with (crossing_num (qp a) (qp b) (qp c)).
  rewrite E2, !transfer_sub. reflexivity.
Qed.
Lemma t_gi (a b c d : pt Q) : get_intersection (qp a) (qp b) (qp c) (qp d) = option_map qp (q_gi a b c d).
Proof.
  unfold get_intersection, q_gi. rewrite !t_between. change (intersect (qp a) (qp b) (qp c) (qp d)) with (intersect (q2p a) (q2p b) (q2p c) (q2p d)).
  rewrite q2r_intersect. destruct (intersect a b c d) eqn:E; cbn [negb].
  - cbn [option_map]. f_equal. now apply t_crossing.
  - repeat (destruct (between_dec _ _ _); [reflexivity|]). reflexivity.
Qed.

(** far points, when the length is rational *)
Definition qsqrt (q : Q) : option Q :=
  let r := Qred q in let n := Z.sqrt (Qnum r) in let m := Pos.sqrt (Qden r) in
  if (n * n =? Qnum r)%Z && (m * m =? Qden r)%positive then Some (n # m) else None.
Lemma qsqrt_R q s : qsqrt q = Some s -> sqrt (Q2R q) = Q2R s.
Proof.
  unfold qsqrt. destruct (_ && _) eqn:E; [|discriminate]. intros X. inversion X; subst s. clear X.
  apply andb_prop in E. destruct E as [E1 E2]. apply Z.eqb_eq in E1. apply Pos.eqb_eq in E2.
  rewrite <- (Qeq_eqR _ _ (Qred_correct q)). set (r := Qred q) in *.
  apply sqrt_lem_1.
  - replace 0 with (Q2R 0) by apply Q2R_0. apply Qle_Rle. unfold Qle. cbn. rewrite <- E1. rewrite Z.mul_1_r. apply Z.square_nonneg.
  - replace 0 with (Q2R 0) by apply Q2R_0. apply Qle_Rle. unfold Qle. cbn. rewrite Z.mul_1_r. apply Z.sqrt_nonneg.
  - rewrite <- Q2R_mult. apply Qeq_eqR. unfold Qeq. cbn. rewrite E1, E2. reflexivity.
Qed.
Definition q_along (w : pt Q) : option (pt Q) :=
  match qsqrt (sqd w (0, 0)%Q) with
  | Some n => if Qeq_bool n 0 then None else Some (ndiv (nmul 300%Q (fst w)) n, ndiv (nmul 300%Q (snd w)) n)
  | None => None
  end.
Definition q_along_ok (w : pt Q) : bool := match qsqrt (sqd w (0, 0)%Q) with Some _ => true | None => false end.
Lemma t_along w : q_along_ok w = true -> inf_along (qp w) = option_map qp (q_along w).
Proof.
  unfold q_along_ok, q_along, inf_along. destruct (qsqrt _) as [n|] eqn:E; [|discriminate]. intros _. apply qsqrt_R in E.
  assert (En : np_norm (qp w) = Q2R n).
  { rewrite <- E. unfold np_norm. f_equal. rewrite <- t_sqd. unfold sqd, qp. nR. cbn [fst snd]. rewrite Q2R_0. ring. }
  rewrite En. destruct (Qeq_bool n 0) eqn:Z0.
  - apply Qeq_bool_eq in Z0. rewrite (Qeq_eqR _ _ Z0), Q2R_0. destruct (Reqb_spec 0 0); [reflexivity|lra].
  - apply Qeq_bool_neq in Z0. destruct (Reqb_spec (Q2R n) 0) as [X|X].
    + exfalso. apply Z0. rewrite <- Q2R_0 in X. now apply eqR_Qeq.
    + cbn [option_map]. unfold qp. cbn [fst snd]. rewrite !transfer_div, !transfer_mul by exact Z0.
      replace (Q2R 300) with 300 by (unfold Q2R; cbn; lra). unfold INF_VAL. reflexivity.
Qed.

Definition q_away (p q : pt Q) : option (pt Q) := match q_along (psub p q) with Some w => Some (padd p w) | None => None end.
Definition q_ahead (p q : pt Q) : option (pt Q) := match q_along (psub q p) with Some w => Some (padd p w) | None => None end.
Definition q_before (p q : pt Q) : option (pt Q) := match q_along (psub q p) with Some w => Some (psub p w) | None => None end.
Definition q_ops : kops (pt Q) := {|
  k_cw := is_cw; k_ccw := is_ccw; k_col := is_collinear;
  k_same := fun a b c d e f => nltb 0%Q (nmul (orientation_val a b c) (orientation_val d e f));
  k_between := between_dec; k_gi := q_gi;
  k_away := q_away; k_ahead := q_ahead; k_before := q_before;
  k_far := fun p q => padd p (nmul 300%Q (fst (psub q p)), nmul 300%Q (snd (psub q p)));
  k_eq := fun a b => neqb (fst a) (fst b) && neqb (snd a) (snd b) |}.
Lemma t_orientation (a b c : pt Q) : orientation_val (qp a) (qp b) (qp c) = Q2R (orientation_val a b c).
Proof. unfold orientation_val, qp. cbn [fst snd]. rewrite !transfer_sub, !transfer_mul, !transfer_sub. reflexivity. Qed.
Lemma sim_code : sim qp q_ops code_ops.
Proof.
  constructor; cbn [k_cw k_ccw k_col k_same k_between k_gi k_far k_eq q_ops code_ops].
  - apply t_is_cw.
  - apply t_is_ccw.
  - intros a b c. apply (q2r_is_collinear a b c).
  - intros. rewrite !t_orientation, <- transfer_mul, transfer_ltb, Q2R_0. reflexivity.
  - apply t_between.
  - apply t_gi.
  - intros a b. unfold code_far. rewrite t_padd, <- t_psub. f_equal. unfold qp. cbn [fst snd]. rewrite !transfer_mul.
    replace (Q2R 300) with 300 by (unfold Q2R; cbn; lra). reflexivity.
  - intros a b. unfold qp. cbn [fst snd]. rewrite !transfer_eqb. reflexivity.
Qed.
Lemma sim_code_edge a b : q_along_ok (psub a b) = true -> q_along_ok (psub b a) = true -> sim_edge qp q_ops code_ops a b.
Proof.
  intros H1 H2. apply t_along in H1. apply t_along in H2. constructor; cbn [k_away k_ahead k_before q_ops code_ops].
  - unfold code_away, q_away. rewrite <- t_psub, H1. clear H1 H2. destruct (q_along (psub a b)); cbn [option_map]; [rewrite t_padd|]; reflexivity.
  - unfold code_ahead, q_ahead. rewrite <- t_psub, H2. clear H1 H2. destruct (q_along (psub b a)); cbn [option_map]; [rewrite t_padd|]; reflexivity.
  - unfold code_before, q_before. rewrite <- t_psub, H2. clear H1 H2. destruct (q_along (psub b a)); cbn [option_map]; [rewrite t_psub|]; reflexivity.
Qed.
Definition edge_ok (a b : pt Q) : bool := q_along_ok (psub a b) && q_along_ok (psub b a).
Definition ring_ok (v : list (pt Q)) : bool :=
  match v with
  | [] => true
  | d :: _ => forallb (fun i => edge_ok (nth i v d) (kget d v (Z.of_nat i + 1))) (seq 0 (length v)) &&
              edge_ok (nth 0 v d) (nth 1 v d) && edge_ok (nth 0 v d) (nth (length v - 1) v d)
  end.
Lemma ring_ok_sim v : ring_ok v = true -> sim_ring qp q_ops code_ops v.
Proof.
  intros H d Hd. destruct v as [|x r]; [discriminate|]. cbn in Hd. inversion Hd; subst x. clear Hd.
  unfold ring_ok in H. apply andb_prop in H. destruct H as [H H3]. apply andb_prop in H. destruct H as [H1 H2].
  assert (K : forall a b, edge_ok a b = true -> sim_edge qp q_ops code_ops a b).
  { intros a b E. apply andb_prop in E. destruct E. apply sim_code_edge; assumption. }
  split; [|split; apply K; assumption]. intros i Hi. apply K. rewrite forallb_forall in H1. apply H1, in_seq. lia.
Qed.

Definition ring_check (v : list (pt Q)) : bool :=
  match remove_inline q_ops v with Ret v1 => ring_ok (start_reflex q_ops v1) | Exn _ => false end.
Lemma scan_kernel_Q v : ring_check v = true -> scan_kernel code_ops (map qp v) = rmap (option_map (map qp)) (scan_kernel q_ops v).
Proof.
  unfold ring_check. destruct (remove_inline q_ops v) as [v1|x] eqn:E; [|discriminate]. intros H.
  apply (sim_scan_kernel qp q_ops code_ops sim_code v v1 E). now apply ring_ok_sim.
Qed.

(** _check_convexity over Q *)
Definition q_corner (g : pt Q -> pt Q -> pt Q -> bool) (v : list (pt Q)) (i : nat) : bool :=
  let n := length v in g (nth (pred_idx i n) v (0, 0)%Q) (nth i v (0, 0)%Q) (nth ((i + 1) mod n) v (0, 0)%Q).
Fixpoint q_skip (fuel i : nat) (v : list (pt Q)) : res nat :=
  match fuel with
  | O => Exn RuntimeErr
  | S fuel' =>
      if Nat.leb (length v) i then Exn IndexErr
      else if q_corner is_collinear v i then
        if Nat.ltb (length v) (i + 1) then Exn RuntimeErr else q_skip fuel' (i + 1) v
      else Ret i
  end.
Definition q_convexity (v : list (pt Q)) : res bool :=
  let n := length v in
  bind (q_skip (n + 2) 0 v) (fun i =>
  if Nat.leb n (i + 1) then Exn IndexErr
  else if is_cw (nth (pred_idx i n) v (0, 0)%Q) (nth i v (0, 0)%Q) (nth (i + 1) v (0, 0)%Q)
       then Ret (negb (existsb (q_corner is_ccw v) (seq 0 n)))
       else Ret (negb (existsb (q_corner is_cw v) (seq 0 n)))).
Lemma nth_qp (v : list (pt Q)) k : nth k (map qp v) (0, 0) = qp (nth k v (0, 0)%Q).
Proof. rewrite <- (map_nth qp). f_equal. unfold qp. cbn [fst snd]. now rewrite Q2R_0. Qed.
Lemma t_corner (g : pt R -> pt R -> pt R -> bool) (h : pt Q -> pt Q -> pt Q -> bool) (v : list (pt Q)) i :
  (forall a b c, g (qp a) (qp b) (qp c) = h a b c) -> at_corner g (map qp v) i = q_corner h v i.
Proof. intros G. unfold at_corner, corner, q_corner. rewrite map_length, !nth_qp. apply G. Qed.
Lemma t_skip (v : list (pt Q)) fuel : forall i, skip_collinear fuel i (map qp v) = q_skip fuel i v.
Proof.
  induction fuel as [|n IH]; intros i; cbn [skip_collinear q_skip]; [reflexivity|].
  rewrite map_length, (t_corner is_collinear is_collinear) by (intros a b c; apply (q2r_is_collinear a b c)). rewrite IH. reflexivity.
Qed.
Lemma existsb_ext {A} (g h : A -> bool) l : (forall a, g a = h a) -> existsb g l = existsb h l.
Proof. intros E. induction l as [|a l IH]; cbn; [reflexivity|]. now rewrite E, IH. Qed.
Lemma t_convexity (v : list (pt Q)) : check_convexity (map qp v) = q_convexity v.
Proof.
  unfold check_convexity, q_convexity. cbv zeta. rewrite map_length, t_skip. unfold pt in *.
  destruct (q_skip (length v + 2) 0 v) as [i|e]; [|reflexivity]. cbn [bind].
  destruct (Nat.leb (length v) (i + 1)); [reflexivity|]. rewrite !nth_qp, t_is_cw.
  rewrite (existsb_ext (at_corner is_ccw (map qp v)) (q_corner is_ccw v)) by (intros; apply t_corner, t_is_ccw).
  rewrite (existsb_ext (at_corner is_cw (map qp v)) (q_corner is_cw v)) by (intros; apply t_corner, t_is_cw). reflexivity.
Qed.
Definition q_kernel (v : list (pt Q)) : res (option (list (pt Q))) :=
  bind (q_convexity v) (fun c => if c then Ret (Some v) else scan_kernel q_ops v).
Lemma compute_kernel_Q v : ring_check v = true -> compute_kernel (map qp v) = rmap (option_map (map qp)) (q_kernel v).
Proof.
  intros H. unfold compute_kernel, q_kernel. rewrite t_convexity.
  destruct (q_convexity v) as [[|]|e]; cbn [bind]; try reflexivity. now apply scan_kernel_Q.
Qed.
