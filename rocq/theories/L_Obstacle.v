From Coq Require Import Reals Lra Lia List Bool Arith ZArith.
From Verif Require Import Num Spec M_Cg M_Motion M_Obstacle L_Geom L_Cg L_Gen L_Motion.
Import ListNotations.
Local Open Scope R_scope.
Local Arguments affine_transform : simpl never.

(** ids *)
Lemma set_ids_length l : forall c, length (set_ids c l) = length l.
Proof. induction l; intros; cbn; auto. destruct (set_id c a). cbn. auto. Qed.
(* number of ids handed out before position k *)
Definition handed (c : Z) (l : list id_arg) (k : nat) : Z :=
  fold_left (fun c a => fst (set_id c a)) (firstn k l) c.
Lemma set_ids_nth l : forall c k, (k < length l)%nat ->
  nth k (set_ids c l) None = snd (set_id (handed c l k) (nth k l IdOther)).
Proof.
  induction l as [|a l IH]; intros c k H; [cbn in H; lia|]. cbn [set_ids]. destruct (set_id c a) as [c' i] eqn:E.
  destruct k.
  - cbn. unfold handed. cbn. rewrite E. reflexivity.
  - cbn [nth]. cbn in H. rewrite IH by lia. unfold handed. cbn [firstn fold_left]. rewrite E. reflexivity.
Qed.
Lemma handed_S c l k : (k < length l)%nat -> handed c l (S k) = fst (set_id (handed c l k) (nth k l IdOther)).
Proof.
  revert c l; induction k; intros c l H; destruct l; cbn in H; try lia.
  - reflexivity.
  - unfold handed in *. cbn [firstn fold_left nth]. rewrite <- IHk by lia. reflexivity.
Qed.
Lemma set_id_fst c a : fst (set_id c a) = match a with IdNew => (c + 1)%Z | _ => c end.
Proof. destruct a; reflexivity. Qed.
Lemma handed_mono c l j k : (j <= k <= length l)%nat -> (handed c l j <= handed c l k)%Z.
Proof.
  intros [A B]. induction A as [|k A IH]; [lia|]. specialize (IH ltac:(lia)). rewrite handed_S by lia. rewrite set_id_fst.
  destruct (nth k l IdOther); lia.
Qed.
Lemma handed_surj l : forall k z, (k <= length l)%nat -> (0 < z <= handed 0 l k)%Z ->
  exists j, (j < k)%nat /\ nth j l IdOther = IdNew /\ (handed 0 l j + 1 = z)%Z.
Proof.
  induction k; intros z Hk Hz; [unfold handed in Hz; cbn in Hz; lia|].
  rewrite handed_S in Hz by lia. rewrite set_id_fst in Hz.
  destruct (nth k l IdOther) eqn:E; try (destruct (IHk z ltac:(lia) ltac:(lia)) as (j & A & B); exists j; split; [lia|exact B]).
  destruct (Z.eq_dec z (handed 0 l k + 1)).
  - exists k. split; [lia|]. split; [exact E|]. lia.
  - destruct (IHk z ltac:(lia) ltac:(lia)) as (j & A & B). exists j. split; [lia|exact B].
Qed.
Lemma handed_pos l k : (k <= length l)%nat -> (0 <= handed 0 l k)%Z.
Proof. intros H. change 0%Z with (handed 0 l 0) at 1. apply handed_mono. lia. Qed.

(** heap *)
Lemma upd_length h : forall l m, length (upd l m h) = length h.
Proof. induction h; intros [|l] m; cbn; auto. Qed.
Lemma upd_same h : forall l m d, (l < length h)%nat -> nth l (upd l m h) d = m.
Proof. induction h; intros [|l] m d H; cbn in *; try lia; auto. apply IHh. lia. Qed.
Lemma upd_other h : forall l l' m d, l <> l' -> nth l' (upd l m h) d = nth l' h d.
Proof. induction h; intros [|l] [|l'] m d H; cbn in *; try lia; auto. Qed.
Lemma moves_ref_app h r l1 l2 : moves_ref h r (l1 ++ l2) =
  match moves_ref h r l1 with Some h' => moves_ref h' r l2 | None => None end.
Proof.
  unfold moves_ref. rewrite fold_left_app. destruct (fold_left _ l1 (Some h)); auto. induction l2; auto.
Qed.
Lemma moves_ref_other h r l' dts h' : moves_ref h r dts = Some h' -> r <> Some l' ->
  nth l' h' dead = nth l' h dead /\ length h' = length h.
Proof.
  revert h'. induction dts as [|d dts IH] using rev_ind; intros h' E N.
  - injection E as <-. auto.
  - rewrite moves_ref_app in E. destruct (moves_ref h r dts) as [h1|] eqn:E1; [|discriminate].
    destruct (IH h1 eq_refl N) as [A B]. unfold moves_ref, move_ref in E. cbn [fold_left] in E.
    destruct r as [l|]; [|injection E as <-; auto]. destruct (move d (nth l h1 dead)); [|discriminate]. injection E as <-.
    rewrite upd_other by congruence. rewrite upd_length. auto.
Qed.
Lemma moves_ref_own h l dts : (l < length h)%nat ->
  moves_ref h (Some l) dts = match moves (nth l h dead) dts with
    | Some m => Some (match dts with [] => h | _ => upd l m h end) | None => None end.
Proof.
  intros H. induction dts as [|d dts IH] using rev_ind; [reflexivity|].
  rewrite moves_ref_app, moves_app, IH. destruct (moves (nth l h dead) dts) as [m|] eqn:E; [|reflexivity].
  rewrite moves_one. unfold moves_ref at 1. cbn [fold_left move_ref].
  assert (EN : nth l (match dts with [] => h | _ => upd l m h end) dead = m).
  { destruct dts; [injection E as <-; reflexivity|]. apply upd_same, H. }
  rewrite EN. destruct (move d m) as [m'|]; [|reflexivity].
  f_equal. destruct dts as [|x dts]; [reflexivity|]. cbn [app].
  clear. revert l; induction h as [|y h IH]; intros [|l]; cbn; auto. f_equal. apply IH.
Qed.

(** frames *)
Lemma affine0_fwd r x : affine_transform x r (0, 0) false = rotv r x.
Proof.
  rewrite affine_forward. unfold place, vadd. cbn [fst snd]. rewrite !Rplus_0_r. destruct (rotv r x); reflexivity.
Qed.
Lemma affine0_back r x : affine_transform x r (0, 0) true = rotv (- r) x.
Proof.
  rewrite affine_back. f_equal. unfold vsub. cbn [fst snd]. rewrite !Rminus_0_r. destruct x; reflexivity.
Qed.
Definition good (f : frame) : Prop := f = GLOBAL \/ f = OBSTACLE.
Lemma transform_good m x fi fo : good fi -> good fo -> exists y, transform m x fi fo = Ret y.
Proof. intros [->| ->] [->| ->]; destruct m; cbn; eauto. Qed.
Lemma place_inv r t x : rotv (- r) (vsub (place r t x) t) = x.
Proof. unfold place. replace (vsub (vadd (rotv r x) t) t) with (rotv r x); [apply rotv_cancel|].
  unfold vsub, vadd. destruct (rotv r x). apply pair_eq; cbn; ring. Qed.
Lemma place_inv' r t x : place r t (rotv (- r) (vsub x t)) = x.
Proof. unfold place. rewrite rotv_cancel'. unfold vadd, vsub. destruct x. apply pair_eq; cbn; ring. Qed.
Lemma transform_roundtrip m x fi fo y : good fi -> good fo -> transform m x fi fo = Ret y -> transform m y fo fi = Ret x.
Proof.
  intros [->| ->] [->| ->]; destruct m as [m|]; cbn; injection 1 as <-; auto.
  - rewrite affine_forward, affine_back, place_inv'. reflexivity.
  - rewrite affine_forward, affine_back, place_inv. reflexivity.
Qed.
Lemma rotate_good m x fi fo : good fi -> good fo -> exists a, rotate m x fi fo = Ret (rotv a x) /\
  forall p q tp tq, transform m p fi fo = Ret tp -> transform m q fi fo = Ret tq -> vsub tp tq = rotv a (vsub p q).
Proof.
  assert (Z : forall x, rotv 0 x = x) by (intros [a b]; unfold rotv; rewrite cos_0, sin_0; cbn [fst snd]; apply pair_eq; ring).
  intros [->| ->] [->| ->]; destruct m as [m|];
    try (exists 0; rewrite Z; split; [reflexivity|]; intros p q tp tq; cbn; injection 1 as <-; injection 1 as <-; rewrite Z; reflexivity).
  - exists (- m_rot m). cbn. rewrite affine0_back. split; [reflexivity|]. intros p q tp tq. injection 1 as <-. injection 1 as <-.
    rewrite !affine_back, <- rotv_sub. f_equal. unfold vsub; cbn [fst snd]; apply pair_eq; ring.
  - exists (m_rot m). cbn. rewrite affine0_fwd. split; [reflexivity|]. intros p q tp tq. injection 1 as <-. injection 1 as <-.
    rewrite !affine_forward, vsub_place. reflexivity.
Qed.

(** caches *)
Lemma pose_eqb_eq a b : pose_eqb a b = true <-> a = b.
Proof.
  destruct a as [[a1 a2] a3], b as [[b1 b2] b3]. unfold pose_eqb. cbn [fst snd].
  rewrite !andb_true_iff. split.
  - intros [[A B] C]. destruct (Reqb_spec a1 b1), (Reqb_spec a2 b2), (Reqb_spec a3 b3); try discriminate. congruence.
  - injection 1 as -> -> ->. repeat split; match goal with |- Reqb ?x ?x = true => destruct (Reqb_spec x x); congruence end.
Qed.
Lemma apply_pose_place m l : apply_pose (pose_of m) l = map (place (m_rot m) (m_pos m)) l.
Proof.
  unfold apply_pose, pose_of. cbn [fst snd]. apply map_ext. intros v. unfold place, rotv, vadd. cbn [fst snd]. apply pair_eq; ring.
Qed.
(* the polygon cache, and the local polygon, are right *)
Definition inv_poly (k : kind) (o : obj) : Prop :=
  (forall p, o_polygon o = Some p -> p = rep_of k) /\
  (forall ps, o_polygon_pose o = Some ps -> o_polygon_global o = Some (apply_pose ps (rep_of k))).
Lemma inv_poly_ext k o o' : inv_poly k o -> o_polygon o' = o_polygon o -> o_polygon_global o' = o_polygon_global o ->
  o_polygon_pose o' = o_polygon_pose o -> inv_poly k o'.
Proof. unfold inv_poly. intros H -> -> ->. exact H. Qed.
Lemma polygon_spec k f o : inv_poly k o -> inv_poly k (fst (polygon k f o)) /\ o_mm (fst (polygon k f o)) = o_mm o /\
  o_xr (fst (polygon k f o)) = o_xr o /\ o_kernel (fst (polygon k f o)) = o_kernel o /\
  o_kernel_global (fst (polygon k f o)) = o_kernel_global o /\ o_kernel_pose (fst (polygon k f o)) = o_kernel_pose o /\
  o_polygon (fst (polygon k f o)) = Some (rep_of k) /\
  snd (polygon k f o) = match f, o_mm o with
    | OBSTACLE, _ | _, None => Ret (Some (rep_of k))
    | GLOBAL, Some m => Ret (Some (map (place (m_rot m) (m_pos m)) (rep_of k)))
    | OTHER, Some _ => Exn InvalidFrameError end.
Proof.
  intros [I1 I2]. unfold polygon. cbv zeta.
  assert (E : match o_polygon o with Some p => p | None => rep_of k end = rep_of k) by (destruct (o_polygon o); auto).
  rewrite E. destruct f, (o_mm o) as [m|];
    try (cbn [fst snd]; split; [split; cbn [o_polygon o_polygon_pose o_polygon_global]; [intros q H; injection H as <-; reflexivity|exact I2]|];
         repeat (split; [reflexivity|]); reflexivity).
  destruct (o_polygon_pose o) as [ps|] eqn:P.
  - destruct (pose_eqb (pose_of m) ps) eqn:Q; cbn [fst snd].
    + apply pose_eqb_eq in Q. subst ps. specialize (I2 _ eq_refl).
      split; [split; cbn [o_polygon o_polygon_pose o_polygon_global]; intros q H; injection H as <-; [reflexivity|exact I2]|].
      repeat (split; [reflexivity|]). rewrite I2, apply_pose_place. reflexivity.
    + split; [split; cbn [o_polygon o_polygon_pose o_polygon_global]; intros q H; injection H as <-; reflexivity|].
      repeat (split; [reflexivity|]). rewrite apply_pose_place. reflexivity.
  - cbn [fst snd]. split; [split; cbn [o_polygon o_polygon_pose o_polygon_global]; intros q H; injection H as <-; reflexivity|].
    repeat (split; [reflexivity|]). rewrite apply_pose_place. reflexivity.
Qed.
Lemma kernel_keeps k f o : o_polygon (fst (kernel k f o)) = o_polygon o /\ o_polygon_global (fst (kernel k f o)) = o_polygon_global o /\
  o_polygon_pose (fst (kernel k f o)) = o_polygon_pose o /\ o_mm (fst (kernel k f o)) = o_mm o /\ o_xr (fst (kernel k f o)) = o_xr o.
Proof.
  unfold kernel. destruct k; [repeat split| |];
  (destruct f, (o_mm o) as [m|] eqn:E; cbn [fst]; rewrite ?E; try (repeat split; reflexivity);
   destruct (match o_kernel_pose o with Some p => pose_eqb (pose_of m) p | None => false end); cbn; rewrite ?E; try (repeat split; reflexivity);
   destruct (o_kernel o); cbn; rewrite ?E; repeat split; try reflexivity).
  all: try (destruct kern; cbn; rewrite ?E; repeat split; reflexivity).
  all: try (destruct (o_polygon o) eqn:E2; cbn; rewrite ?E, ?E2; repeat split; reflexivity).
  all: destruct kern; cbn; rewrite ?E; reflexivity.
Qed.
Lemma set_xr_keeps k p f s o : o_polygon (fst (set_xr k p f s o)) = o_polygon o /\ o_polygon_global (fst (set_xr k p f s o)) = o_polygon_global o /\
  o_polygon_pose (fst (set_xr k p f s o)) = o_polygon_pose o /\ o_mm (fst (set_xr k p f s o)) = o_mm o.
Proof.
  unfold set_xr.
  assert (G : forall kk, o_polygon (fst (let '(o1, r) := kernel kk GLOBAL o in match r with Exn e => (o1, Exn e) | Ret _ => (o1, Exn (A := option (list RPt)) AttributeErr) end)) = o_polygon o /\
    o_polygon_global (fst (let '(o1, r) := kernel kk GLOBAL o in match r with Exn e => (o1, Exn e) | Ret _ => (o1, Exn (A := option (list RPt)) AttributeErr) end)) = o_polygon_global o /\
    o_polygon_pose (fst (let '(o1, r) := kernel kk GLOBAL o in match r with Exn e => (o1, Exn e) | Ret _ => (o1, Exn (A := option (list RPt)) AttributeErr) end)) = o_polygon_pose o /\
    o_mm (fst (let '(o1, r) := kernel kk GLOBAL o in match r with Exn e => (o1, Exn e) | Ret _ => (o1, Exn (A := option (list RPt)) AttributeErr) end)) = o_mm o).
  { intros kk. pose proof (kernel_keeps kk GLOBAL o) as (A & B & C & D & _). destruct (kernel kk GLOBAL o) as [o1 [r|e]]; cbn in *; auto. }
  destruct k; [repeat split| |]; (destruct (transform (o_mm o) p f OBSTACLE); [|repeat split]; destruct s; [apply G|repeat split]).
Qed.
Lemma new_inv k m xr : inv_poly k (new_obj k m xr).
Proof. destruct k; split; cbn; try discriminate; intros p H; injection H as <-; reflexivity. Qed.
Lemma step_poly k o x o' r : inv_poly k o -> step k o x = Some (o', r) -> inv_poly k o'.
Proof.
  intros I. destruct x; cbn [step]; intros E.
  - destruct (o_mm o); [|injection E as <- _; exact I]. destruct (lin_vel m); try discriminate; injection E as <- _; exact I.
  - injection E as <- _; exact I.
  - injection E as <- _; exact I.
  - injection E as <- _; exact I.
  - pose proof (polygon_spec k f o I) as (A & _). injection E as E. rewrite E in A. exact A.
  - pose proof (kernel_keeps k f o) as (A & B & C & _). injection E as E. rewrite E in A, B, C. apply (inv_poly_ext k o); auto.
  - pose proof (set_xr_keeps k p f safe o) as (A & B & C & _). injection E as E. rewrite E in A, B, C. apply (inv_poly_ext k o); auto.
Qed.
(* the motion model after a history: queries do not matter *)
Definition mm_step (m : option mm) (x : op) : option mm :=
  match x with
  | OpMove dt => match m with Some m' => match move dt m' with Some m2 => Some m2 | None => m end | None => None end
  | OpSetPos p => option_map (set_pos p) m
  | OpSetRot r => option_map (set_rot r) m
  | OpSetMotionModel m' => m'
  | _ => m
  end.
Lemma step_mm k o x o' r : step k o x = Some (o', r) -> o_mm o' = mm_step (o_mm o) x.
Proof.
  destruct x; cbn [step mm_step]; intros E.
  - destruct (o_mm o) as [m|] eqn:M; [|injection E as <- _; exact M]. unfold move in *.
    destruct (lin_vel m); try discriminate; injection E as <- _; [exact M|reflexivity].
  - injection E as <- _; reflexivity.
  - injection E as <- _; reflexivity.
  - injection E as <- _; reflexivity.
  - injection E as E. unfold polygon in E. cbv zeta in E.
    destruct f, (o_mm o) eqn:M; injection E as <- _ || idtac; try (cbn; auto; fail).
    destruct (match o_polygon_pose o with Some p => _ | None => _ end) in E; injection E as <- _; reflexivity.
  - pose proof (kernel_keeps k f o) as (_ & _ & _ & D & _). injection E as E. rewrite E in D. exact D.
  - pose proof (set_xr_keeps k p f safe o) as (_ & _ & _ & D). injection E as E. rewrite E in D. exact D.
Qed.
Lemma run_poly k l : forall o o', inv_poly k o -> run k o l = Some o' ->
  inv_poly k o' /\ o_mm o' = fold_left mm_step l (o_mm o).
Proof.
  induction l as [|x l IH]; intros o o' I E; cbn in *.
  - injection E as <-. auto.
  - destruct (step k o x) as [[o1 r]|] eqn:S; [|discriminate]. rewrite <- (step_mm _ _ _ _ _ S).
    apply IH; auto. eapply step_poly; eauto.
Qed.
Lemma run_app k l1 : forall l2 o, run k o (l1 ++ l2) = match run k o l1 with Some o' => run k o' l2 | None => None end.
Proof. induction l1; intros; cbn; auto. destruct (step k o a) as [[o1 r]|]; auto. Qed.

(** kernel cache *)
Definition source (k : kind) (o : obj) : option (list RPt) :=
  match k with KPolygon _ => None | KStarPolygon _ q => q | KEllipse _ => o_polygon o end.
Definition inv_kern (k : kind) (q : list RPt) (o : obj) : Prop :=
  source k o = Some q /\ (forall q', o_kernel o = Some q' -> q' = q) /\
  (forall ps, o_kernel_pose o = Some ps -> o_kernel_global o = Some (apply_pose ps q)).
Lemma kernel_spec k q f o : inv_kern k q o -> inv_kern k q (fst (kernel k f o)) /\
  snd (kernel k f o) = match f, o_mm o with
    | OBSTACLE, _ | _, None => Ret (Some q)
    | GLOBAL, Some m => Ret (Some (map (place (m_rot m) (m_pos m)) q))
    | OTHER, Some _ => Exn InvalidFrameError end.
Proof.
  intros (I0 & I1 & I2). unfold kernel.
  assert (E : match o_kernel o with Some q0 => Some q0 | None => source k o end = Some q)
    by (rewrite I0; destruct (o_kernel o); [rewrite (I1 _ eq_refl)|]; reflexivity).
  assert (G : exists body, kernel k f o = body) by eauto. clear G.
  destruct k as [rep|rep kern|rep]; [discriminate I0| |]; cbn [source] in *; rewrite E; cbv zeta.
  all: destruct f, (o_mm o) as [m|]; try (cbn [fst snd]; split; [split; [exact I0|split; [cbn; intros q' H; injection H as <-; reflexivity|exact I2]]|reflexivity]).
  all: destruct (o_kernel_pose o) as [ps|] eqn:P; [destruct (pose_eqb (pose_of m) ps) eqn:Q|]; cbn [fst snd].
  all: try (apply pose_eqb_eq in Q; subst ps; specialize (I2 _ eq_refl); split;
     [split; [exact I0|split; [cbn; intros q' H; injection H as <-; reflexivity|cbn; intros ps H; injection H as <-; exact I2]]
     |rewrite I2, apply_pose_place; reflexivity]).
  all: split; [split; [exact I0|split; [cbn; intros q' H; injection H as <-; reflexivity|cbn; intros ps' H; injection H as <-; reflexivity]]
     |rewrite apply_pose_place; reflexivity].
Qed.
Lemma step_kern k q o x o' r : inv_poly k o -> inv_kern k q o -> step k o x = Some (o', r) -> inv_kern k q o'.
Proof.
  intros J I. destruct x; cbn [step]; intros E.
  - destruct (o_mm o); [|injection E as <- _; exact I]. destruct (lin_vel m); try discriminate; injection E as <- _; exact I.
  - injection E as <- _; exact I.
  - injection E as <- _; exact I.
  - injection E as <- _; exact I.
  - pose proof (polygon_spec k f o J) as (_ & _ & _ & A & B & C & D & _). injection E as E. rewrite E in A, B, C, D. cbn [fst] in *.
    destruct I as (I0 & I1 & I2). unfold inv_kern. rewrite A, B, C. split; [|split; assumption].
    destruct k; cbn [source] in *; auto. rewrite D. destruct J as [J _]. rewrite (J _ I0). reflexivity.
  - pose proof (kernel_spec k q f o I) as [A _]. injection E as E. rewrite E in A. exact A.
  - injection E as E. unfold set_xr in E. destruct k as [rep|rep kern|rep]; [injection E as <- _; exact I| |];
      (destruct (transform (o_mm o) p f OBSTACLE); [|injection E as <- _; exact I];
       destruct safe; [|injection E as <- _; exact I]).
    + pose proof (kernel_spec (KStarPolygon rep kern) q GLOBAL o I) as [A _]. destruct (kernel _ GLOBAL o) as [o1 [r1|e]];
        injection E as <- _; exact A.
    + pose proof (kernel_spec (KEllipse rep) q GLOBAL o I) as [A _]. destruct (kernel _ GLOBAL o) as [o1 [r1|e]];
        injection E as <- _; exact A.
Qed.
Lemma run_kern k q l : forall o o', inv_poly k o -> inv_kern k q o -> run k o l = Some o' -> inv_kern k q o'.
Proof.
  induction l as [|x l IH]; intros o o' J I E; cbn in *.
  - injection E as <-. auto.
  - destruct (step k o x) as [[o1 r]|] eqn:S; [|discriminate]. apply (IH o1); auto; [eapply step_poly|eapply step_kern]; eauto.
Qed.
(* an operation that cannot touch the kernel *)
Definition no_kernel (x : op) : Prop :=
  match x with OpKernel _ => False | OpSetXr _ _ true => False | _ => True end.
Lemma run_untouched k l : forall o o', Forall no_kernel l -> inv_poly k o -> o_kernel o = None -> o_kernel_pose o = None -> run k o l = Some o' ->
  o_kernel o' = None /\ o_kernel_pose o' = None.
Proof.
  induction l as [|x l IH]; intros o o' F J A B E; cbn in E; [injection E as <-; auto|].
  destruct (step k o x) as [[o1 r]|] eqn:S; [|discriminate]. inversion_clear F as [|? ? Fx Fl].
  assert (J1 : inv_poly k o1) by (eapply step_poly; eauto).
  apply (IH o1 o' Fl J1); auto.
  - destruct x; cbn in S, Fx.
    + destruct (o_mm o); [|injection S as <- _; exact A]. destruct (lin_vel m); try discriminate; injection S as <- _; exact A.
    + injection S as <- _; exact A.
    + injection S as <- _; exact A.
    + injection S as <- _; exact A.
    + pose proof (polygon_spec k f o J) as (_ & _ & _ & Z & _). injection S as S. rewrite S in Z. cbn in Z. congruence.
    + destruct Fx.
    + destruct safe; [destruct Fx|]. injection S as S. unfold set_xr in S. destruct k; [injection S as <- _; exact A| |];
      (destruct (transform (o_mm o) p f OBSTACLE); injection S as <- _; exact A).
  - destruct x; cbn in S, Fx.
    + destruct (o_mm o); [|injection S as <- _; exact B]. destruct (lin_vel m); try discriminate; injection S as <- _; exact B.
    + injection S as <- _; exact B.
    + injection S as <- _; exact B.
    + injection S as <- _; exact B.
    + pose proof (polygon_spec k f o J) as (_ & _ & _ & _ & _ & Z & _). injection S as S. rewrite S in Z. cbn in Z. congruence.
    + destruct Fx.
    + destruct safe; [destruct Fx|]. injection S as S. unfold set_xr in S. destruct k; [injection S as <- _; exact B| |];
      (destruct (transform (o_mm o) p f OBSTACLE); injection S as <- _; exact B).
Qed.
