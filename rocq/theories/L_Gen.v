(** The random polygon generators. *)
From Coq Require Import Reals Lra Psatz List Bool Arith Lia Permutation Sorted.
From Verif Require Import Num Spec M_Cg M_ConePolygon M_Gen L_Geom L_Polar L_Atan2.
Import ListNotations.
Open Scope R_scope.

(** *** sums *)
Lemma rsum_app l m : rsum (l ++ m) = rsum l + rsum m.
Proof. unfold rsum. induction l; simpl; lra. Qed.
Lemma cumsum_rsum l : cumsum l = rsum l.
Proof.
  unfold cumsum. assert (H : forall l a, fold_left Rplus l a = a + rsum l).
  { clear. induction l as [|x l IH]; intros a; unfold rsum in *; simpl; [lra|]. rewrite IH. lra. }
  rewrite H. lra.
Qed.
Lemma rsum_perm l m : Permutation l m -> rsum l = rsum m.
Proof. unfold rsum. induction 1; simpl; lra. Qed.
Lemma rsum_map_div l c : rsum (map (fun a => a / c) l) = rsum l / c.
Proof. unfold rsum. induction l; simpl; [unfold Rdiv; ring|]. rewrite IHl. unfold Rdiv. ring. Qed.
Lemma rsum_ge l k : (forall x, In x l -> k <= x) -> INR (length l) * k <= rsum l.
Proof.
  induction l as [|x l IH]; intros H. { unfold rsum; simpl; lra. }
  change (length (x :: l)) with (S (length l)). rewrite S_INR. unfold rsum in *; simpl.
  assert (k <= x) by (apply H; left; auto). assert (INR (length l) * k <= fold_right Rplus 0 l) by (apply IH; intros; apply H; right; auto). lra.
Qed.
Lemma rsum_pos_strict l : l <> [] -> (forall x, In x l -> 0 < x) -> 0 < rsum l.
Proof.
  intros Hne H. destruct l as [|x l]; [congruence|]. unfold rsum; simpl.
  assert (0 < x) by (apply H; left; auto).
  assert (G : 0 <= rsum l). { rewrite <- (Rmult_0_r (INR (length l))). apply rsum_ge. intros y Hy. left; apply H; right; auto. }
  unfold rsum in G. lra.
Qed.

(** *** random_angle_steps *)
Lemma angle_steps_ok n irr u : (1 <= n)%nat -> 0 <= irr < 2 * PI / INR n ->
  (forall i, 0 <= u i < 1) ->
  exists steps, random_angle_steps n irr u = Gen steps /\ length steps = n /\
    (forall s, In s steps -> 0 < s) /\ rsum steps = 2 * PI.
Proof.
  intros Hn Hirr Hu. unfold random_angle_steps. destruct (Nat.eqb_spec n 0); [lia|]. cbv zeta.
  set (lower := 2 * PI / INR n - irr). set (upper := 2 * PI / INR n + irr).
  set (angles := map (fun i => uniform lower upper (u i)) (seq 0 n)).
  assert (Hpos : forall a, In a angles -> 0 < a).
  { intros a Ha. apply in_map_iff in Ha as (i & <- & _). unfold uniform, lower, upper. destruct (Hu i). nra. }
  assert (Hlen : length angles = n) by (unfold angles; rewrite map_length, seq_length; auto).
  assert (Hs : 0 < rsum angles).
  { apply rsum_pos_strict; auto. intros E. rewrite E in Hlen. simpl in Hlen. lia. }
  pose proof PI_RGT_0 as Hpi. rewrite cumsum_rsum.
  assert (Hc : 0 < rsum angles / (2 * PI)) by (apply Rdiv_lt_0_compat; lra).
  destruct (Reqb_spec (rsum angles / (2 * PI)) 0); [lra|].
  eexists. split; [reflexivity|]. split; [rewrite map_length; auto|]. split.
  - intros s Hs'. apply in_map_iff in Hs' as (a & <- & Ha). apply Rdiv_lt_0_compat; auto.
  - rewrite rsum_map_div. field. lra.
Qed.

(** *** generate_star_polygon *)
Lemma clip_bounds x hi : 0 <= hi -> 0 <= np_clip x 0 hi <= hi.
Proof. intros. unfold np_clip, Rmin, Rmax. destruct (Rle_dec x 0), (Rle_dec _ hi); lra. Qed.
Lemma star_points_spec center avg spik g : 0 <= avg -> forall steps i angle,
  length (star_points center avg spik g i angle steps) = length steps /\
  forall k, (k < length steps)%nat -> exists r, 0 <= r <= 2 * avg /\
    nth k (star_points center avg spik g i angle steps) (0, 0) = vadd center (polar r (angle + rsum (firstn k steps))).
Proof.
  intros Ha. induction steps as [|s steps IH]; intros i angle; simpl; [split; auto; intros; lia|].
  destruct (IH (S i) (angle + s)) as [L N]. split; [rewrite L; auto|].
  intros [|k] Hk.
  - exists (np_clip (avg + spik * g i) 0 (2 * avg)). split; [apply clip_bounds; lra|].
    simpl. unfold rsum, polar, vadd; simpl. rewrite Rplus_0_r. reflexivity.
  - destruct (N k ltac:(lia)) as (r & Hr & E). exists r. split; auto. rewrite E. f_equal. f_equal.
    unfold rsum; simpl. lra.
Qed.

(** *** sorting *)
Section Sorting.
  Context {A : Type} (leb : A -> A -> bool).
  Hypothesis total : forall x y, leb x y = false -> leb y x = true.
  Hypothesis trans : forall x y z, leb x y = true -> leb y z = true -> leb x z = true.
  Lemma insert_perm x l : Permutation (insert leb x l) (x :: l).
  Proof.
    induction l as [|y l IH]; simpl; auto. destruct (leb x y); auto.
    rewrite IH. apply perm_swap.
  Qed.
  Lemma isort_perm l : Permutation (isort leb l) l.
  Proof. induction l as [|x l IH]; simpl; auto. rewrite insert_perm. auto. Qed.
  Lemma insert_sorted x l : StronglySorted (fun a b => leb a b = true) l -> StronglySorted (fun a b => leb a b = true) (insert leb x l).
  Proof.
    induction 1 as [|y l Hs IH Hf]; simpl; [repeat constructor|].
    destruct (leb x y) eqn:E.
    - constructor; [constructor; auto|]. constructor; auto. eapply Forall_impl; [|exact Hf]. cbv beta. eauto.
    - constructor; auto. rewrite Forall_forall in *. intros z Hz.
      apply (Permutation_in _ (insert_perm x l)) in Hz as [<-|Hz]; auto.
  Qed.
  Lemma isort_sorted l : StronglySorted (fun a b => leb a b = true) (isort leb l).
  Proof. induction l; simpl; [constructor|]. apply insert_sorted; auto. Qed.
End Sorting.
Lemma Rleb_total x y : Rleb x y = false -> Rleb y x = true.
Proof. rewrite Rleb_false, Rleb_true. lra. Qed.
Lemma Rleb_trans x y z : Rleb x y = true -> Rleb y z = true -> Rleb x z = true.
Proof. rewrite !Rleb_true. lra. Qed.
Lemma tuple_leb_iff p q : tuple_leb p q = true <-> fst p < fst q \/ (fst p = fst q /\ snd p <= snd q).
Proof.
  unfold tuple_leb. destruct (Reqb_spec (fst p) (fst q)).
  - rewrite Rleb_true. lra.
  - rewrite Rltb_true. lra.
Qed.
Lemma tuple_total x y : tuple_leb x y = false -> tuple_leb y x = true.
Proof.
  intros H. apply tuple_leb_iff. destruct (Rtotal_order (fst y) (fst x)) as [K|[K|K]]; auto.
  - destruct (Rle_or_lt (snd y) (snd x)); auto.
    assert (tuple_leb x y = true) by (apply tuple_leb_iff; right; split; lra). congruence.
  - assert (tuple_leb x y = true) by (apply tuple_leb_iff; left; lra). congruence.
Qed.
Lemma tuple_trans x y z : tuple_leb x y = true -> tuple_leb y z = true -> tuple_leb x z = true.
Proof. rewrite !tuple_leb_iff. lra. Qed.
Lemma sorted_unique {A} (R : A -> A -> Prop) : (forall x y, R x y -> R y x -> x = y) ->
  forall l m, StronglySorted R l -> StronglySorted R m -> Permutation l m -> l = m.
Proof.
  intros anti. induction l as [|x l IH]; intros m Hl Hm HP.
  - apply Permutation_nil in HP. auto.
  - destruct m as [|y m]; [apply Permutation_sym, Permutation_nil in HP; discriminate|].
    inversion_clear Hl as [|? ? Hl1 Hl2]. inversion_clear Hm as [|? ? Hm1 Hm2]. rewrite Forall_forall in *.
    assert (E : x = y).
    { assert (Hx : In x (y :: m)) by (eapply Permutation_in; [exact HP|left; auto]).
      assert (Hy : In y (x :: l)) by (eapply Permutation_in; [apply Permutation_sym, HP|left; auto]).
      destruct Hx as [->|Hx]; auto. destruct Hy as [->|Hy]; auto. }
    subst y. f_equal. apply IH; auto. eapply Permutation_cons_inv, HP.
Qed.

(** *** the signed gaps *)
Definition pos (x : R) : R := Rmax 0 x.
Definition possum (l : list R) : R := rsum (map pos l).
Lemma pos_nonneg x : 0 <= pos x.
Proof. unfold pos, Rmax. destruct (Rle_dec 0 x); lra. Qed.
Lemma pos_ge x : x <= pos x.
Proof. unfold pos, Rmax. destruct (Rle_dec 0 x); lra. Qed.
Lemma pos_of x : 0 <= x -> pos x = x.
Proof. intros; unfold pos, Rmax. destruct (Rle_dec 0 x); lra. Qed.
Lemma pos_of_neg x : x <= 0 -> pos x = 0.
Proof. intros; unfold pos, Rmax. destruct (Rle_dec 0 x); lra. Qed.
Lemma possum_app l m : possum (l ++ m) = possum l + possum m.
Proof. unfold possum. rewrite map_app. apply rsum_app. Qed.
Lemma possum_nonneg l : 0 <= possum l.
Proof. unfold possum, rsum. induction l; simpl; [lra|]. pose proof (pos_nonneg a). lra. Qed.
Lemma possum_ge l : rsum l <= possum l.
Proof. unfold possum, rsum. induction l; simpl; [lra|]. pose proof (pos_ge a). lra. Qed.
Lemma possum_perm l m : Permutation l m -> possum l = possum m.
Proof. intros. unfold possum. apply rsum_perm. apply Permutation_map; auto. Qed.

Lemma chain_sum hi b : forall mids lt lb k, rsum (chain lt lb hi mids b k) = lb - lt.
Proof.
  induction mids as [|m mids IH]; intros lt lb k; simpl; [unfold rsum; simpl; lra|].
  destruct (b k); unfold rsum in *; simpl; rewrite IH; lra.
Qed.
Lemma chain_length hi b : forall mids lt lb k, length (chain lt lb hi mids b k) = S (S (length mids)).
Proof. induction mids as [|m mids IH]; intros lt lb k; simpl; auto. destruct (b k); simpl; rewrite IH; auto. Qed.
Lemma chain_possum hi b : forall mids lt lb k, lt <= hi -> lb <= hi ->
  (forall m, In m mids -> lt <= m /\ lb <= m /\ m <= hi) -> StronglySorted Rle mids ->
  possum (chain lt lb hi mids b k) = hi - lt.
Proof.
  induction mids as [|m mids IH]; intros lt lb k H1 H2 H3 Hs; simpl.
  - unfold possum, rsum; simpl. rewrite pos_of, pos_of_neg by lra. lra.
  - inversion_clear Hs as [|? ? Hs1 Hs2]. rewrite Forall_forall in Hs2.
    destruct (H3 m (or_introl eq_refl)) as (A & B & C).
    destruct (b k); unfold possum, rsum in *; simpl; rewrite IH; auto.
    + rewrite pos_of by lra. lra.
    + intros m' Hm'. destruct (H3 m' (or_intror Hm')) as (? & ? & ?). specialize (Hs2 m' Hm'). lra.
    + rewrite pos_of_neg by lra. lra.
    + intros m' Hm'. destruct (H3 m' (or_intror Hm')) as (? & ? & ?). specialize (Hs2 m' Hm'). lra.
Qed.
Lemma last_app_one {A} (l : list A) x d : last (l ++ [x]) d = x.
Proof. induction l as [|a [|b l] IH]; simpl; auto. Qed.
Lemma sorted_app_inv {A} (R : A -> A -> Prop) l m : StronglySorted R (l ++ m) ->
  StronglySorted R l /\ StronglySorted R m /\ forall x y, In x l -> In y m -> R x y.
Proof.
  induction l as [|a l IH]; simpl; intros H.
  - repeat split; auto. constructor. intros x y [].
  - inversion_clear H as [|? ? H1 H2]. destruct (IH H1) as (A1 & A2 & A3). rewrite Forall_forall in H2. repeat split; auto.
    + constructor; auto. rewrite Forall_forall. intros x Hx. apply H2, in_or_app; auto.
    + intros x y [<-|Hx] Hy; auto. apply H2, in_or_app; auto.
Qed.
Lemma gaps_spec pool b : (2 <= length pool)%nat -> StronglySorted Rle pool ->
  rsum (gaps pool b) = 0 /\ length (gaps pool b) = length pool /\
  possum (gaps pool b) = last pool 0 - hd 0 pool /\ is_spread pool (last pool 0 - hd 0 pool).
Proof.
  intros Hn Hs. destruct pool as [|lo pool]; [simpl in Hn; lia|].
  destruct (@exists_last _ pool) as (mids & hi & E); [intros ->; simpl in Hn; lia|].
  subst pool. unfold gaps. cbn [hd tl]. rewrite removelast_last.
  change (lo :: mids ++ [hi]) with ((lo :: mids) ++ [hi]) in *. rewrite last_app_one.
  apply sorted_app_inv in Hs as (S1 & S2 & S3). inversion_clear S1 as [|? ? S4 S5]. rewrite Forall_forall in S5.
  assert (Hle : forall x, In x (lo :: mids) -> x <= hi) by (intros; apply S3; simpl; auto).
  assert (Hlo : lo <= hi) by (apply Hle; left; auto).
  split; [rewrite chain_sum; lra|]. split; [rewrite chain_length, app_length; simpl; lia|]. split.
  - apply chain_possum; auto. intros m Hm. specialize (S5 m Hm). specialize (Hle m (or_intror Hm)). lra.
  - split.
    + exists hi, lo. split; [apply in_or_app; right; left; auto|]. split; [left; auto|auto].
    + assert (Hall : forall x, In x ((lo :: mids) ++ [hi]) -> lo <= x <= hi).
      { intros x Hx. apply in_app_or in Hx as [[<-|Hx]|[<-|[]]]; try lra. specialize (S5 x Hx). specialize (Hle x (or_intror Hx)). lra. }
      intros a c Ha Hc. apply Hall in Ha, Hc. lra.
Qed.

(** *** laying vectors end to end *)
Lemma lay_length : forall xv yv x y, length xv = length yv -> length (lay x y xv yv) = length xv.
Proof. induction xv as [|a xv IH]; intros [|b yv] x y H; simpl in *; try discriminate; auto. Qed.
Lemma lay_fst : forall xv yv x y, length xv = length yv -> forall k, (k < length xv)%nat ->
  nth k (lay x y xv yv) (0, 0) = (x + rsum (firstn k xv), y + rsum (firstn k yv)).
Proof.
  induction xv as [|a xv IH]; intros [|b yv] x y H [|k] Hk; simpl in *; try discriminate; try lia.
  - unfold rsum; simpl. apply pair_eq; ring.
  - rewrite IH by lia. unfold rsum; simpl. apply pair_eq; ring.
Qed.
Lemma sum_split (l : list R) k : rsum l = rsum (firstn k l) + rsum (skipn k l).
Proof. rewrite <- rsum_app, firstn_skipn. auto. Qed.
Lemma possum_split (l : list R) k : possum l = possum (firstn k l) + possum (skipn k l).
Proof. rewrite <- possum_app, firstn_skipn. auto. Qed.
Lemma prefix_diff (l : list R) i j : rsum l = 0 -> rsum (firstn j l) - rsum (firstn i l) <= possum l.
Proof.
  intros H0. destruct (le_lt_dec i j) as [Hij|Hij].
  - pose proof (sum_split (firstn j l) i) as E. rewrite firstn_firstn, Nat.min_l in E by lia.
    pose proof (possum_ge (skipn i (firstn j l))). pose proof (possum_nonneg (firstn i l)).
    pose proof (possum_split (firstn j l) i) as F. rewrite firstn_firstn, Nat.min_l in F by lia.
    pose proof (possum_split l j). pose proof (possum_nonneg (skipn j l)). lra.
  - pose proof (sum_split l i) as E. pose proof (possum_split l i). pose proof (possum_ge (skipn i l)).
    pose proof (possum_split (firstn i l) j) as F. rewrite firstn_firstn, Nat.min_l in F by lia.
    pose proof (possum_ge (firstn j l)). pose proof (possum_nonneg (skipn j (firstn i l))). lra.
Qed.

(** *** zip-sorting keeps the sign pattern *)
Lemma sorted_threshold (l : list (R * R)) (c : R) : StronglySorted (fun a b => tuple_leb a b = true) l ->
  exists l1 l2, l = l1 ++ l2 /\ (forall p, In p l1 -> fst p <= c) /\ (forall p, In p l2 -> c < fst p).
Proof.
  induction 1 as [|p l Hs IH Hf]. { exists [], []. split; [reflexivity|split; intros p []]. }
  destruct IH as (l1 & l2 & E & H1 & H2). destruct (Rle_or_lt (fst p) c) as [K|K].
  - exists (p :: l1), l2. rewrite E. split; [reflexivity|]. split; [intros q [<-|Hq]; auto|auto].
  - exists [], (p :: l). split; [reflexivity|]. split; [intros q []|].
    intros q [<-|Hq]; auto. rewrite Forall_forall in Hf. specialize (Hf q Hq). apply tuple_leb_iff in Hf. lra.
Qed.
Lemma possum_nonpos l : (forall x, In x l -> x <= 0) -> possum l = 0.
Proof.
  induction l as [|x l IH]; intros H; [reflexivity|]. unfold possum, rsum in *; simpl.
  rewrite pos_of_neg by (apply H; left; auto). rewrite IH; [lra|]. intros y Hy. apply H; right; exact Hy.
Qed.
Lemma possum_nn l : (forall x, In x l -> 0 <= x) -> possum l = rsum l.
Proof.
  induction l as [|x l IH]; intros H; [reflexivity|]. unfold possum, rsum in *; simpl.
  rewrite pos_of by (apply H; left; auto). rewrite IH; [lra|]. intros y Hy. apply H; right; exact Hy.
Qed.
Lemma combine_snd {A B} (l : list A) : forall (m : list B), length l = length m -> map snd (combine l m) = m.
Proof. induction l as [|a l IH]; intros [|b m] H; simpl in *; try discriminate; auto. f_equal; auto. Qed.
Lemma combine_fst {A B} (l : list A) : forall (m : list B), length l = length m -> map fst (combine l m) = l.
Proof. induction l as [|a l IH]; intros [|b m] H; simpl in *; try discriminate; auto. f_equal; auto. Qed.
Definition angles (xv yv : list R) : list R := map (fun p => arctan2 (snd p) (fst p)) (combine xv yv).
Definition zipsort (ang v : list R) : list R := map snd (isort tuple_leb (combine ang v)).
Lemma angles_length xv yv : length xv = length yv -> length (angles xv yv) = length xv.
Proof. intros. unfold angles. rewrite map_length, combine_length. lia. Qed.
Lemma zipsort_perm ang v : length ang = length v -> Permutation (zipsort ang v) v.
Proof.
  intros H. unfold zipsort. rewrite (Permutation_map snd (isort_perm tuple_leb (combine ang v))).
  rewrite combine_snd; auto.
Qed.
Lemma zip_x xv : forall yv p, In p (combine (angles xv yv) xv) -> exists r, 0 <= r /\ - PI < fst p <= PI /\ snd p = r * cos (fst p).
Proof.
  induction xv as [|x xv IH]; intros [|y yv] p; simpl; try tauto. intros [<-|H]; [|eapply IH; eauto].
  exists (norm (x, y)). split; [apply norm_nonneg|]. split; [apply arctan2_bound|]. simpl.
  exact (f_equal fst (arctan2_polar x y)).
Qed.
Lemma zip_y xv : forall yv p, In p (combine (angles xv yv) yv) -> exists r, 0 <= r /\ - PI < fst p <= PI /\ snd p = r * sin (fst p).
Proof.
  induction xv as [|x xv IH]; intros [|y yv] p; simpl; try tauto. intros [<-|H]; [|eapply IH; eauto].
  exists (norm (x, y)). split; [apply norm_nonneg|]. split; [apply arctan2_bound|]. simpl.
  exact (f_equal snd (arctan2_polar x y)).
Qed.
Lemma cos_le_0' a : - PI < a <= - (PI / 2) -> cos a <= 0.
Proof. intros. rewrite <- cos_neg. apply cos_le_0; lra. Qed.
Lemma prefix_app (l1 l2 : list R) : rsum (firstn (length l1) (l1 ++ l2)) = rsum l1.
Proof. rewrite firstn_app, Nat.sub_diag, firstn_all, app_nil_r. auto. Qed.
Lemma x_spread xv yv : length xv = length yv ->
  exists i j, (i <= length xv)%nat /\ (j <= length xv)%nat /\
    rsum (firstn j (zipsort (angles xv yv) xv)) - rsum (firstn i (zipsort (angles xv yv) xv)) = possum xv.
Proof.
  intros L. pose proof (angles_length xv yv L) as LA.
  pose proof (zipsort_perm (angles xv yv) xv LA) as HP.
  rewrite <- (possum_perm _ _ HP). pose proof (Permutation_length HP) as HL.
  unfold zipsort in *. set (s := isort tuple_leb (combine (angles xv yv) xv)) in *.
  assert (Hs : StronglySorted (fun a b => tuple_leb a b = true) s) by (apply isort_sorted; [apply tuple_total|apply tuple_trans]).
  assert (Hin : forall p, In p s -> exists r, 0 <= r /\ - PI < fst p <= PI /\ snd p = r * cos (fst p)).
  { intros p Hp. apply (zip_x xv yv). eapply Permutation_in; [apply isort_perm|exact Hp]. }
  destruct (sorted_threshold s (- (PI / 2)) Hs) as (l1 & l2 & E & H1 & H2).
  rewrite E in Hs. apply sorted_app_inv in Hs as (_ & Hs2 & _).
  destruct (sorted_threshold l2 (PI / 2) Hs2) as (l2a & l2b & E2 & H3 & H4).
  assert (Hle : (length l1 + length l2a <= length xv)%nat).
  { rewrite <- HL, E, E2. rewrite map_length, !app_length. lia. }
  exists (length l1), (length l1 + length l2a)%nat. split; [lia|]. split; [lia|].
  rewrite E, E2, !map_app.
  replace (length l1 + length l2a)%nat with (length (map snd l1 ++ map snd l2a)) by (rewrite app_length, !map_length; auto).
  rewrite app_assoc, prefix_app. rewrite <- app_assoc. rewrite <- (map_length snd l1). rewrite prefix_app.
  rewrite rsum_app, !possum_app.
  rewrite (possum_nonpos (map snd l1)), (possum_nn (map snd l2a)), (possum_nonpos (map snd l2b)); [lra| | |];
    intros x Hx; apply in_map_iff in Hx as (p & <- & Hp).
  - assert (Hps : In p s) by (rewrite E, E2; apply in_or_app; right; apply in_or_app; auto).
    destruct (Hin p Hps) as (r & Hr & Hb & ->). specialize (H4 p Hp).
    assert (cos (fst p) <= 0) by (apply cos_le_0; lra). nra.
  - assert (Hps : In p s) by (rewrite E, E2; apply in_or_app; right; apply in_or_app; auto).
    destruct (Hin p Hps) as (r & Hr & Hb & ->). specialize (H3 p Hp).
    assert (In p l2) by (rewrite E2; apply in_or_app; auto). specialize (H2 p H).
    assert (0 <= cos (fst p)) by (apply cos_ge_0; lra). nra.
  - assert (Hps : In p s) by (rewrite E; apply in_or_app; auto).
    destruct (Hin p Hps) as (r & Hr & Hb & ->). specialize (H1 p Hp).
    assert (cos (fst p) <= 0) by (apply cos_le_0'; lra). nra.
Qed.
Lemma y_spread xv yv : length xv = length yv ->
  exists i j, (i <= length xv)%nat /\ (j <= length xv)%nat /\
    rsum (firstn j (zipsort (angles xv yv) yv)) - rsum (firstn i (zipsort (angles xv yv) yv)) = possum yv.
Proof.
  intros L. pose proof (angles_length xv yv L) as LA. assert (LA' : length (angles xv yv) = length yv) by lia.
  pose proof (zipsort_perm (angles xv yv) yv LA') as HP.
  rewrite <- (possum_perm _ _ HP). pose proof (Permutation_length HP) as HL.
  unfold zipsort in *. set (s := isort tuple_leb (combine (angles xv yv) yv)) in *.
  assert (Hs : StronglySorted (fun a b => tuple_leb a b = true) s) by (apply isort_sorted; [apply tuple_total|apply tuple_trans]).
  assert (Hin : forall p, In p s -> exists r, 0 <= r /\ - PI < fst p <= PI /\ snd p = r * sin (fst p)).
  { intros p Hp. apply (zip_y xv yv). eapply Permutation_in; [apply isort_perm|exact Hp]. }
  destruct (sorted_threshold s 0 Hs) as (l1 & l2 & E & H1 & H2).
  assert (Hle : (length l1 + length l2 = length yv)%nat).
  { rewrite <- HL, E. rewrite map_length, !app_length. lia. }
  exists (length l1), (length l1 + length l2)%nat. split; [lia|]. split; [lia|].
  rewrite E, !map_app.
  replace (length l1 + length l2)%nat with (length (map snd l1 ++ map snd l2)) by (rewrite app_length, !map_length; auto).
  rewrite firstn_all. rewrite <- (map_length snd l1). rewrite prefix_app.
  rewrite rsum_app, !possum_app.
  rewrite (possum_nonpos (map snd l1)), (possum_nn (map snd l2)); [lra| |];
    intros x Hx; apply in_map_iff in Hx as (p & <- & Hp).
  - assert (Hps : In p s) by (rewrite E; apply in_or_app; auto).
    destruct (Hin p Hps) as (r & Hr & Hb & ->). specialize (H2 p Hp).
    assert (0 <= sin (fst p)) by (apply sin_ge_0; lra). nra.
  - assert (Hps : In p s) by (rewrite E; apply in_or_app; auto).
    destruct (Hin p Hps) as (r & Hr & Hb & ->). specialize (H1 p Hp).
    assert (sin (fst p) <= 0); [|nra]. apply Ropp_le_cancel. rewrite Ropp_0, <- sin_neg. apply sin_ge_0; lra.
Qed.
