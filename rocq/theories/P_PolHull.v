(** starshaped_hull/starshaped_hull.py:49-206 polygon_kernel_starshaped_hull: C90-C94. *)
From Coq Require Import QArith Qreals Reals Lra Psatz List Bool Arith ZArith Lia.
From Verif Require Import Num Spec M_Cg M_Motion M_Obstacle M_PolHull S_PolHull L_Geom L_Cg L_PolHull L_PolHull2 L_PolHull3 W_PolWorld W_PolTransfer W_PolTriangles.
Import ListNotations.
Open Scope R_scope.

Lemma hull_run (W : pol_world R) (K vs : list (pt R)) (l : list (pt R)) : polygon_kernel_starshaped_hull W K vs = Ret l ->
  exists k0 K' ws s vb, K = k0 :: K' /\ arrange vs = Ret ws /\
    vertex_loop W K (last ws k0) ws (AS [] 0 0 (map (fun _ => false) K), k0) = Ret (s, vb) /\
    final_loop K (length (a_sv s)) 0 (a_sv s) (a_inc s) = Ret l /\ (l = [] \/ (3 <= length l)%nat).
Proof.
  unfold polygon_kernel_starshaped_hull. destruct K as [|k0 K'] eqn:EK; [discriminate|]. rewrite <- EK. unfold hull_from. intros H.
  binv H. binv H. destruct x0 as [s vb]. binv H. exists k0, K', x, s, vb. repeat split; auto.
  - destruct x0 as [|a [|b [|c d]]]; try discriminate; congruence.
  - destruct x0 as [|a [|b [|c d]]]; try discriminate; injection H as <-; auto. right. cbn. lia.
Qed.

(** *** C90 the result's vertices *)
Theorem C90_spanned : forall A K W V l, faithful A K W -> polygon_kernel_starshaped_hull W K V = Ret l ->
  forall p, In p l -> spanned K V p.
Proof.
  intros A K W V l F H p Hp. apply hull_run in H as (k0 & K' & ws & s & vb & EK & Ha & Hl & Hf & _).
  assert (Kne : K <> []) by congruence. pose proof (arrange_in _ _ Ha) as Hin.
  assert (G : Forall (spanned K V) (a_sv (fst (s, vb)))).
  { apply (vertex_loop_good W K (spanned K V) (fun v => In v V)) in Hl; auto.
    - intros. eapply r_v; eauto.
    - intros. eapply r_k; eauto.
    - intros. eapply r_cross; eauto.
    - intros. eapply r_shift; eauto.
    - intros. eapply r_meet; eauto.
    - apply Forall_forall. intros x Hx. apply Hin. auto.
    - constructor. }
  cbn [fst] in G. apply final_loop_in in Hf as [Hf _]. destruct (Hf p Hp) as [Q|Q].
  - rewrite Forall_forall in G. auto.
  - destruct ws as [|w ws'].
    + cbn [vertex_loop] in Hl. injection Hl as <- <-. unfold arrange in Ha. destruct (roll_to_max V) eqn:E; [discriminate|].
      binv Ha. binv Ha. binv Ha. destruct (is_cw _ _ _); [|discriminate]. rewrite flip_roll_cons in Ha. discriminate.
    + exists p, w. split; auto. split; [apply Hin; simpl; auto|apply on_seg_start].
Qed.
(** hence nothing is added outside: every star-shaped region that has the polygon's vertices and these kernel points
    in its kernel has the vertices of the result, and so has the convex hull *)
Theorem C90_least : forall A K W V l, faithful A K W -> polygon_kernel_starshaped_hull W K V = Ret l ->
  forall B : region, (forall v, In v V -> B v) -> (forall k, In k K -> starshaped_from B k) -> forall p, In p l -> B p.
Proof.
  intros A K W V l F H B HV HK p Hp. destruct (C90_spanned _ _ _ _ _ F H p Hp) as (k & v & Hk & Hv & (t & Ht & ->)).
  apply (HK k Hk v); auto. exists t. auto.
Qed.
(** a dart and a point in front of its notch *)
Definition dart : list (pt Q) := [(-2, 0); (3, -3); (0, 0); (3, 3)]%Q.
Definition dart_tris : list tri := [((-2, 0), (3, -3), (0, 0)); ((-2, 0), (0, 0), (3, 3))]%Q.
Lemma dart_encloses : encloses (map qp dart) (tri_region dart_tris).
Proof. apply (enc_ear1 (-2, 0) (3, -3) (0, 0) [(3, 3)])%Q; [apply enc_tri1|]; vm_compute; reflexivity. Qed.
Lemma dart_open k v : visible (pieces_world (map qtri dart_tris) [k]) [k] v = true -> open_behind (tri_region dart_tris) (qp k) (qp v).
Proof.
  intros H. apply (proj1 (visible_open _ [qp k] (tri_world dart_tris [k]) (tri_faithful dart_tris [k]) (qp v))); [|left; auto].
  rewrite <- H. apply (t_visible _ _ (pieces_same _ [k]) [k]).
Qed.
Lemma dart_run : polygon_kernel_starshaped_hull (tri_world dart_tris [(2, 1)%Q]) (map qp [(2, 1)%Q]) (map qp dart) =
  Ret (map qp [(3, -3); (2, 1); (3, 3); (-2, 0)]%Q).
Proof. rewrite tri_run. vm_compute (polygon_kernel_starshaped_hull _ _ _). reflexivity. Qed.
Example C90_example : exists A K W V l, encloses V A /\ faithful A K W /\ polygon_kernel_starshaped_hull W K V = Ret l /\
  exists p, In p l /\ ~ In p V.
Proof.
  exists (tri_region dart_tris), (map qp [(2, 1)%Q]), (tri_world dart_tris [(2, 1)%Q]), (map qp dart), (map qp [(3, -3); (2, 1); (3, 3); (-2, 0)]%Q).
  split; [apply dart_encloses|]. split; [apply tri_faithful|]. split; [apply dart_run|]. exists (qp (2, 1)%Q). split; [simpl; auto|].
  cbn [map dart In qp fst snd]. unfold Q2R. cbn. intros H. repeat destruct H as [H|H]; auto; injection H; lra.
Qed.
Print Assumptions C90_spanned.
Print Assumptions C90_least.

(** *** C91 the vertices that are kept *)
Lemma kept_open A (K : list (pt R)) W v : faithful A K W -> (length K <= 3)%nat ->
  (kept W K v = true <-> (forall k, In k K -> open_behind A k v) /\ ~ (length K = 3%nat /\ deep_inside K v)).
Proof.
  intros F LK. unfold kept. rewrite andb_true_iff, (visible_open A K W F), orb_true_iff, negb_true_iff. 
  assert (X : ((length K <? 3)%nat = true \/ pw_in_kernel W v = false) <-> ~ (length K = 3%nat /\ deep_inside K v)); [|tauto].
  destruct (Nat.ltb_spec (length K) 3) as [L|L].
  - split; [|left; auto]. intros _ [E _]. lia.
  - assert (L3 : length K = 3%nat) by lia. pose proof (f_kernel _ _ _ F L3 v) as Q. destruct (pw_in_kernel W v).
    + split; [intros [?|?]; discriminate|]. intros N. exfalso. apply N. split; auto. apply Q; auto.
    + split; [|right; auto]. intros _ [_ D]. apply Q in D. discriminate.
Qed.
Lemma all_kept A (K : list (pt R)) W ws k0 s vb l : faithful A K W -> (length K <= 3)%nat ->
  vertex_loop W K (last ws k0) ws (AS [] 0 0 (map (fun _ => false) K), k0) = Ret (s, vb) ->
  final_loop K (length (a_sv s)) 0 (a_sv s) (a_inc s) = Ret l ->
  forall v, In v ws -> (forall k, In k K -> open_behind A k v) -> ~ (length K = 3%nat /\ deep_inside K v) -> In v l.
Proof.
  intros F LK Hl Hf v Hv Ho Hd. 
  apply (vertex_loop_stay W K ws _ _ _ []) in Hl; [|left; auto|constructor]. cbn [app fst] in Hl.
  apply final_loop_in in Hf as [_ Hf]. apply Hf. rewrite Forall_forall in Hl.
  destruct (Hl v) as (i & Hi & _); [|eapply nth_error_In; eauto]. apply filter_In. split; auto.
  apply (kept_open A K W v F LK); auto.
Qed.

Theorem C91_kept : forall A K W V l, faithful A K W -> (length K <= 3)%nat -> polygon_kernel_starshaped_hull W K V = Ret l ->
  forall v, In v V -> (forall k, In k K -> open_behind A k v) -> ~ (length K = 3%nat /\ deep_inside K v) -> In v l.
Proof.
  intros A K W V l F LK H v Hv Ho Hd. apply hull_run in H as (k0 & K' & ws & s & vb & EK & Ha & Hl & Hf & _).
  eapply all_kept; eauto. apply (arrange_in _ _ Ha); auto.
Qed.
Example C91_example : exists A K W V l v, faithful A K W /\ (length K <= 3)%nat /\ polygon_kernel_starshaped_hull W K V = Ret l /\
  In v V /\ (forall k, In k K -> open_behind A k v) /\ ~ (length K = 3%nat /\ deep_inside K v).
Proof.
  exists (tri_region dart_tris), (map qp [(2, 1)%Q]), (tri_world dart_tris [(2, 1)%Q]), (map qp dart), (map qp [(3, -3); (2, 1); (3, 3); (-2, 0)]%Q), (qp (-2, 0)%Q).
  split; [apply tri_faithful|]. split; [cbn; lia|]. split; [apply dart_run|]. split; [simpl; auto|]. split; [|cbn [length map]; intros [E _]; discriminate].
  intros k [<-|[]]. apply dart_open. vm_compute. reflexivity.
Qed.
Print Assumptions C91_kept.

(** *** C92 when the call raises *)
Lemma hull_fail (W : pol_world R) (K vs : list (pt R)) k0 K' e : K = k0 :: K' -> (2 <= length vs)%nat ->
  polygon_kernel_starshaped_hull W K vs = Exn e -> exists ws, arrange vs = Ret ws /\
    (vertex_loop W K (last ws k0) ws (AS [] 0 0 (map (fun _ => false) K), k0) = Exn e \/
     exists s vb l, vertex_loop W K (last ws k0) ws (AS [] 0 0 (map (fun _ => false) K), k0) = Ret (s, vb) /\
       final_loop K (length (a_sv s)) 0 (a_sv s) (a_inc s) = Ret l /\ e = ValueErr /\ (length l <= 2)%nat).
Proof.
  intros EK L. unfold polygon_kernel_starshaped_hull. rewrite EK. rewrite <- EK. unfold hull_from. intros H.
  destruct (arrange_total vs L) as (ws & Ha & _). rewrite Ha in H. cbn [bind] in H. exists ws. split; auto.
  apply bind_exn in H as [H|([s vb] & Hl & H)]; [left; auto|right]. destruct (final_loop_total K (length (a_sv s)) 0 (a_sv s) (a_inc s)) as [l Hf]; [lia|].
  rewrite Hf in H. cbn [bind] in H. exists s, vb, l. repeat split; auto; destruct l as [|a [|b [|c d]]]; try discriminate; cbn; try lia; congruence.
Qed.
(** which exceptions there are, and what two of them mean *)
Theorem C92_failures_partial : forall A K W V e, faithful A K W -> (1 <= length K <= 3)%nat -> (2 <= length V)%nat ->
  polygon_kernel_starshaped_hull W K V = Exn e ->
  (e = IndexErr /\ length K = 3%nat /\ exists v, In v V /\ (forall k, In k K -> open_behind A k v) /\ deep_inside K v) \/
  e = AttributeErr \/
  (e = ValueErr /\ exists a b, forall v, In v V -> (forall k, In k K -> open_behind A k v) ->
     ~ (length K = 3%nat /\ deep_inside K v) -> v = a \/ v = b).
Proof.
  intros A K W V e F LK LV H. destruct K as [|k0 K'] eqn:EK; [cbn in LK; lia|]. rewrite <- EK in *.
  destruct (hull_fail W K V k0 K' e EK LV H) as (ws & Ha & [Hl|(s & vb & l & Hl & Hf & -> & Ll)]); pose proof (arrange_in _ _ Ha) as Hin.
  - assert (Kne : K <> []) by congruence.
    apply (vertex_loop_exn W K (spanned K V) (fun v => In v V)) in Hl.
    + destruct Hl as [(-> & v & Hv & Vi & Kp)|[-> _]]; [left|auto]. split; auto.
      assert (Vo := proj1 (visible_open A K W F v) Vi).
      assert (D : length K = 3%nat /\ deep_inside K v).
      { unfold kept in Kp. rewrite Vi in Kp. cbn [andb] in Kp. apply orb_false_iff in Kp as [L3 Kp]. apply Nat.ltb_ge in L3.
        assert (L : length K = 3%nat) by (unfold pt in *; lia). split; auto. apply (f_kernel _ _ _ F L). apply negb_false_iff in Kp. auto. }
      split; [apply D|]. exists v. split; [apply Hin; auto|]. split; [auto|apply D].
    + intros. eapply r_v; eauto.
    + intros. eapply r_k; eauto.
    + intros. eapply r_cross; eauto.
    + intros. eapply r_shift; eauto.
    + intros. eapply r_meet; eauto.
    + apply Forall_forall. intros x Hx. apply Hin. auto.
    + destruct V as [|v V']; [cbn in LV; lia|]. apply (r_k K (v :: V') k0 v); [rewrite EK|]; simpl; auto.
    + constructor.
    + left. auto.
  - right. right. split; auto. destruct l as [|a [|b [|c d]]]; try (cbn in Ll; lia).
    + exists k0, k0. intros v Hv Ho Hd. exfalso. apply (all_kept A K W ws k0 s vb [] F (proj2 LK) Hl Hf v (proj2 (Hin v) Hv) Ho Hd).
    + exists a, a. intros v Hv Ho Hd. destruct (all_kept A K W ws k0 s vb _ F (proj2 LK) Hl Hf v (proj2 (Hin v) Hv) Ho Hd) as [<-|[]]; auto.
    + exists a, b. intros v Hv Ho Hd. destruct (all_kept A K W ws k0 s vb _ F (proj2 LK) Hl Hf v (proj2 (Hin v) Hv) Ho Hd) as [<-|[<-|[]]]; auto.
Qed.
Print Assumptions C92_failures_partial.
(** one kernel point in general position: the call returns *)
Theorem C92_one_kernel_point : forall A (k : pt R) W (V : list (pt R)), faithful A [k] W -> NoDup V ->
  (forall v w, In v V -> In w V -> v <> w -> area2 k v w <> 0) ->
  forall v1 v2 v3, NoDup [v1; v2; v3] -> (forall v, In v [v1; v2; v3] -> In v V /\ open_behind A k v) ->
  exists l, polygon_kernel_starshaped_hull W [k] V = Ret l /\ (3 <= length l)%nat.
Proof.
  intros A k W V F Nd G v1 v2 v3 N3 H3.
  assert (LV : (3 <= length V)%nat).
  { change 3%nat with (length [v1; v2; v3]). apply NoDup_incl_length; auto. intros v Hv. apply H3. auto. }
  destruct (arrange_total V) as (ws & Ha & Lw); [unfold pt in *; lia|]. pose proof (arrange_in _ _ Ha) as Hin.
  assert (Nw : NoDup ws) by (eapply NoDup_incl_NoDup; [exact Nd|unfold pt in *; lia|intros x Hx; apply Hin; auto]).
  destruct (single_loop A k W F ws [] (last ws k) (AS [] 0 0 [false]) k) as (s & vb & Hl); auto.
  { intros v w Hv Hw. rewrite app_nil_r in Hw. apply G; apply Hin; auto. }
  { left. auto. }
  destruct (final_loop_total [k] (length (a_sv s)) 0 (a_sv s) (a_inc s)) as [l Hf]; [lia|].
  assert (I3 : incl [v1; v2; v3] l).
  { intros v Hv. destruct (H3 v Hv) as [Hv' Ho]. apply (all_kept A [k] W ws k s vb l F); auto.
    - apply Hin. auto.
    - intros k' [<-|[]]. auto.
    - cbn [length]. intros [E _]. discriminate. }
  assert (L3 : (3 <= length l)%nat) by (change 3%nat with (length [v1; v2; v3]); apply NoDup_incl_length; auto).
  exists l. split; auto. unfold polygon_kernel_starshaped_hull, hull_from. rewrite Ha. cbn [bind map].
  rewrite Hl. cbn [bind]. rewrite Hf. cbn [bind]. destruct l as [|a [|b [|c d]]]; try (cbn in L3; lia). reflexivity.
Qed.
Example C92_example : let A := tri_region dart_tris in let k := qp (2, 1)%Q in let V := map qp dart in
  NoDup V /\ (forall v w, In v V -> In w V -> v <> w -> area2 k v w <> 0) /\
  exists v1 v2 v3, NoDup [v1; v2; v3] /\ forall v, In v [v1; v2; v3] -> In v V /\ open_behind A k v.
Proof.
  intros A k V. assert (Nd : NoDup V).
  { unfold V. cbn [map dart qp fst snd]. unfold Q2R. cbn. repeat constructor; cbn [In]; intros H;
      repeat destruct H as [H|H]; auto; injection H; lra. }
  split; auto. split.
  - intros v w Hv Hw Ne. unfold V in *. apply in_map_iff in Hv as (v' & <- & Hv). apply in_map_iff in Hw as (w' & <- & Hw).
    unfold k. rewrite areaQ_R. intros Z.
    assert (E : Qeq_bool (areaQ (2, 1)%Q v' w') 0 = false).
    { cbn [dart In] in Hv, Hw. repeat destruct Hv as [<-|Hv]; try destruct Hv; repeat destruct Hw as [<-|Hw]; try destruct Hw;
        try (vm_compute; reflexivity); exfalso; apply Ne; reflexivity. }
    rewrite <- RMicromega.Q2R_0 in Z. apply eqR_Qeq in Z. apply Qeq_bool_iff in Z. congruence.
  - exists (qp (-2, 0)%Q), (qp (3, -3)%Q), (qp (3, 3)%Q). split.
    + unfold V in Nd. cbn [map dart] in Nd. inversion Nd as [|? ? N1 N2]; subst. inversion N2 as [|? ? N3 N4]; subst. inversion N4; subst.
      cbn [In] in *. constructor; [cbn [In]; tauto|]. constructor; [cbn [In]; tauto|]. auto.
    + intros v Hv. split; [simpl in *; tauto|]. repeat destruct Hv as [<-|Hv]; try destruct Hv; apply dart_open; vm_compute; reflexivity.
Qed.
Print Assumptions C92_one_kernel_point.

(** with three kernel points in general position it does raise: the vertex (4, 0) is inside the kernel triangle, so the
    list of star vertices is empty when a kernel point is appended and the last two are to be swapped *)
Definition hooked : list (pt Q) := [(4, 0); (-2, 5); (2, 0); (3, -2)]%Q.
Definition hooked_tris : list tri := [((4, 0), (-2, 5), (2, 0)); ((4, 0), (2, 0), (3, -2))]%Q.
Theorem C92_index_refuted : exists A V K W, encloses V A /\ (exists a b c, K = [a; b; c] /\ 0 < area2 a b c) /\ faithful A K W /\
  polygon_kernel_starshaped_hull W K V = Exn IndexErr.
Proof.
  exists (tri_region hooked_tris), (map qp hooked), (map qp [(3, -1); (5, -1); (4, 1)]%Q), (tri_world hooked_tris [(3, -1); (5, -1); (4, 1)]%Q).
  split; [apply (enc_ear1 (4, 0) (-2, 5) (2, 0) [(3, -2)])%Q; [apply enc_tri1|]; vm_compute; reflexivity|]. split.
  { exists (qp (3, -1)%Q), (qp (5, -1)%Q), (qp (4, 1)%Q). split; [reflexivity|]. rewrite areaQ_R. apply posb_R. vm_compute. reflexivity. }
  split; [apply tri_faithful|]. rewrite tri_run. vm_compute (polygon_kernel_starshaped_hull _ _ _). reflexivity.
Qed.
(** and when a line through a kernel point covers part of an edge, shapely answers with a LineString *)
Definition sliver : list (pt Q) := [(-3, 2); (-1, -2); (-1, 0); (3, -3)]%Q.
Definition sliver_tris : list tri := [((-3, 2), (-1, -2), (-1, 0)); ((-3, 2), (-1, 0), (3, -3))]%Q.
Theorem C92_attribute_refuted : exists A V K W, encloses V A /\ (exists a b c, K = [a; b; c] /\ area2 a b c <> 0) /\ faithful A K W /\
  polygon_kernel_starshaped_hull W K V = Exn AttributeErr.
Proof.
  exists (tri_region sliver_tris), (map qp sliver), (map qp [(2, -2); (0, -1); (0, -2)]%Q), (tri_world sliver_tris [(2, -2); (0, -1); (0, -2)]%Q).
  split; [apply (enc_ear1 (-3, 2) (-1, -2) (-1, 0) [(3, -3)])%Q; [apply enc_tri1|]; vm_compute; reflexivity|]. split.
  { exists (qp (2, -2)%Q), (qp (0, -1)%Q), (qp (0, -2)%Q). split; [reflexivity|]. apply Rgt_not_eq. rewrite areaQ_R. apply posb_R. vm_compute. reflexivity. }
  split; [apply tri_faithful|]. rewrite tri_run. vm_compute (polygon_kernel_starshaped_hull _ _ _). reflexivity.
Qed.
Print Assumptions C92_index_refuted.
Print Assumptions C92_attribute_refuted.

(** *** C93 the result is star-shaped around the kernel points and covers the polygon *)
(** refuted: a simple result that leaves out a vertex of the polygon, and that no kernel point sees completely *)
Definition notched : list (pt Q) := [(3, 1); (-4, 5); (-2, -1); (-4, -2)]%Q.
Definition notched_tris : list tri := [((3, 1), (-4, 5), (-2, -1)); ((3, 1), (-2, -1), (-4, -2))]%Q.
Definition notched_K : list (pt Q) := [(6, 2); (7, 3); (5, 3)]%Q.
Definition notched_hull : list (pt Q) := [(7, 3); (-4, 5); (-4, -2); (-65 # 32, -29 # 32); (6, 2)]%Q.
Definition notched_hull_tris : list tri :=
  [((6, 2), (7, 3), (-4, 5)); ((-65 # 32, -29 # 32), (6, 2), (-4, 5)); ((-65 # 32, -29 # 32), (-4, 5), (-4, -2))]%Q.
Lemma notched_encloses : encloses (map qp notched) (tri_region notched_tris).
Proof. apply (enc_ear1 (3, 1) (-4, 5) (-2, -1) [(-4, -2)])%Q; [apply enc_tri1|]; vm_compute; reflexivity. Qed.
Lemma notched_hull_encloses : encloses (map qp notched_hull) (tri_region notched_hull_tris).
Proof.
  apply (enc_turn1 (6, 2) [(7, 3); (-4, 5); (-4, -2); (-65 # 32, -29 # 32)])%Q.
  apply (enc_ear1 (6, 2) (7, 3) (-4, 5) [(-4, -2); (-65 # 32, -29 # 32)])%Q; [|vm_compute; reflexivity].
  apply (enc_turn1 (-65 # 32, -29 # 32) [(6, 2); (-4, 5); (-4, -2)])%Q.
  apply (enc_ear1 (-65 # 32, -29 # 32) (6, 2) (-4, 5) [(-4, -2)])%Q; [apply enc_tri1|]; vm_compute; reflexivity.
Qed.
Lemma notched_run : polygon_kernel_starshaped_hull (tri_world notched_tris notched_K) (map qp notched_K) (map qp notched) = Ret (map qp notched_hull).
Proof. rewrite tri_run. vm_compute (polygon_kernel_starshaped_hull _ _ _). reflexivity. Qed.
Theorem C93_refuted : exists A V K W l B, encloses V A /\ (exists a b c, K = [a; b; c] /\ 0 < area2 a b c) /\ faithful A K W /\
  polygon_kernel_starshaped_hull W K V = Ret l /\ encloses l B /\
  (exists v, In v V /\ ~ B v) /\ (exists k, In k K /\ ~ starshaped_from B k).
Proof.
  exists (tri_region notched_tris), (map qp notched), (map qp notched_K), (tri_world notched_tris notched_K), (map qp notched_hull), (tri_region notched_hull_tris).
  split; [apply notched_encloses|]. split.
  { exists (qp (6, 2)%Q), (qp (7, 3)%Q), (qp (5, 3)%Q). split; [reflexivity|]. rewrite areaQ_R. apply posb_R. vm_compute. reflexivity. }
  split; [apply tri_faithful|]. split; [apply notched_run|]. split; [apply notched_hull_encloses|]. split.
  - exists (qp (-2, -1)%Q). split; [simpl; auto|]. rewrite tri_dec. vm_compute. discriminate.
  - exists (qp (6, 2)%Q). split; [simpl; auto|]. intros H.
    assert (P : tri_region notched_hull_tris (qp (-4, -2)%Q)) by (apply tri_dec; vm_compute; reflexivity).
    specialize (H _ (qp (-3, -8 # 5)%Q) P). rewrite tri_dec in H. assert (X : false = true); [|discriminate]. rewrite <- H; [vm_compute; reflexivity|].
    exists (9 / 10). split; [lra|]. unfold qp. cbn [fst snd]. unv. unfold Q2R. cbn. apply pair_eq; lra.
Qed.
(** the empty polygon comes out when the polygon is inside the kernel triangle *)
Definition small : list (pt Q) := [(-4, 4); (-2, -1); (3, 2); (4, 2)]%Q.
Definition small_tris : list tri := [((-4, 4), (-2, -1), (3, 2)); ((-4, 4), (3, 2), (4, 2))]%Q.
Theorem C93_empty_refuted : exists A V K W, encloses V A /\ (exists a b c, K = [a; b; c] /\ area2 a b c <> 0) /\ faithful A K W /\
  polygon_kernel_starshaped_hull W K V = Ret [].
Proof.
  exists (tri_region small_tris), (map qp small), (map qp [(7, 3); (-7, 7); (-3, -2)]%Q), (tri_world small_tris [(7, 3); (-7, 7); (-3, -2)]%Q).
  split; [apply (enc_ear1 (-4, 4) (-2, -1) (3, 2) [(4, 2)])%Q; [apply enc_tri1|]; vm_compute; reflexivity|]. split.
  { exists (qp (7, 3)%Q), (qp (-7, 7)%Q), (qp (-3, -2)%Q). split; [reflexivity|]. apply Rgt_not_eq. rewrite areaQ_R. apply posb_R. vm_compute. reflexivity. }
  split; [apply tri_faithful|]. rewrite tri_run. vm_compute (polygon_kernel_starshaped_hull _ _ _). reflexivity.
Qed.
Print Assumptions C93_refuted.
Print Assumptions C93_empty_refuted.

(** proved: a polygon that every kernel point sees completely is returned as it is, begun at the vertex with largest x *)
Theorem C93_already_starshaped_partial : forall A (K : list (pt R)) W (V : list (pt R)), faithful A K W -> (1 <= length K <= 3)%nat -> V <> [] ->
  (forall k v, In k K -> In v V -> open_behind A k v) ->
  (forall k v x, In k K -> In v V -> on_seg k v x -> A x) ->
  (forall k a b, In k K -> In (a, b) (cyc_edges V) -> 0 < area2 k a b) ->
  exists l, polygon_kernel_starshaped_hull W K V = Ret l /\ rotation V l /\ forall v, In v V -> fst v <= fst (hd v l).
Proof.
  intros A K W V F LK Ne Ho Hs Hc. destruct K as [|k0 K'] eqn:EK; [cbn in LK; lia|]. rewrite <- EK in *.
  assert (Ik : In k0 K) by (rewrite EK; left; auto).
  destruct (roll_spec V Ne) as (p & m & Er & Rt & Hm). rewrite Er in Rt.
  assert (Hc' : forall k a b, In k K -> In (a, b) (cyc_edges (p :: m)) -> 0 < area2 k a b).
  { intros k a b Hk Hab. apply Hc; auto. eapply cyc_rotation; eauto. }
  destruct (exists_last_or_nil m) as [->|(m' & z & Em)].
  { exfalso. pose proof (Hc' k0 p p Ik (or_introl eq_refl)) as X. destruct k0, p; unv; lra. }
  destruct m as [|q m2] eqn:Em2; [destruct m'; discriminate|].
  destruct m2 as [|q2 m3].
  { exfalso. pose proof (Hc' k0 p q Ik (or_introl eq_refl)) as X. pose proof (Hc' k0 q p Ik (or_intror (or_introl eq_refl))) as Y. destruct k0, p, q; unv; lra. }
  assert (E1 : In (p, q) (cyc_edges (p :: q :: q2 :: m3))) by (left; auto).
  assert (E2 : In (z, p) (cyc_edges (p :: q :: q2 :: m3))) by (rewrite Em; apply cyc_wrap).
  assert (Iz : In z V /\ In p V /\ In q V).
  { pose proof (cyc_in _ _ _ (cyc_rotation _ _ _ Rt E1)). pose proof (cyc_in _ _ _ (cyc_rotation _ _ _ Rt E2)). tauto. }
  assert (Kx : fst k0 < fst p).
  { apply Rnot_le_lt. intros C. apply (not_one_side k0 V Ne); [intros; apply Hc; auto|]. intros v Hv. specialize (Hm v Hv). lra. }
  assert (Cw : is_cw z p q = false).
  { apply is_cw_false. pose proof (Hc' k0 _ _ Ik E1) as X. pose proof (Hc' k0 _ _ Ik E2) as Y. pose proof TH_pos.
    pose proof (Hm z (proj1 Iz)) as Hz. pose proof (Hm q (proj2 (proj2 Iz))) as Hq.
    assert (Id : (fst p - fst k0) * area2 z p q = (fst p - fst q) * area2 k0 z p + (fst p - fst z) * area2 k0 p q).
    { destruct k0, z, p, q; unv; cbn [fst snd]; ring. }
    assert (0 <= area2 z p q); [|lra]. apply Rmult_le_reg_l with (fst p - fst k0); [lra|]. rewrite Rmult_0_r, Id.
    pose proof (Rmult_le_pos (fst p - fst q) _ ltac:(lra) (Rlt_le _ _ Y)). pose proof (Rmult_le_pos (fst p - fst z) _ ltac:(lra) (Rlt_le _ _ X)). lra. }
  assert (Ar : arrange V = Ret (p :: q :: q2 :: m3)).
  { unfold arrange. cbv zeta. rewrite Er.
    assert (G1 : py_get (p :: q :: q2 :: m3) (-1) = Ret z) by (rewrite Em; exact (py_last (p :: m') z)).
    assert (G2 : py_get (p :: q :: q2 :: m3) 0 = Ret p) by reflexivity.
    assert (G3 : py_get (p :: q :: q2 :: m3) 1 = Ret q) by (change 1%Z with (Z.of_nat 1); apply nth_py; reflexivity).
    rewrite G1. cbn [bind]. rewrite G2. cbn [bind]. rewrite G3. cbn [bind]. rewrite Cw. reflexivity. }
  exists (p :: q :: q2 :: m3). split; [|split; [exact Rt|cbn [hd]; exact Hm]].
  unfold polygon_kernel_starshaped_hull. rewrite EK. rewrite <- EK. unfold hull_from. rewrite Ar. cbn [bind].
  destruct (al_loop A K V W F (proj2 LK) Ho Hs Hc (p :: q :: q2 :: m3) (last (p :: q :: q2 :: m3) k0) [] (map (fun _ : pt R => false) K) k0) as [vb El].
  { intros v Hv. apply (arrange_in _ _ Ar). auto. }
  rewrite El. cbn [bind a_sv app]. rewrite (al_final K V (proj2 LK) Hc); auto. intros e. apply cyc_rotation. auto.
Qed.
Example C93_example : let A := tri_region dart_tris in let K := [qp (-1, 0)%Q] in let V := map qp dart in
  (exists W, faithful A K W) /\ (1 <= length K <= 3)%nat /\ V <> [] /\
  (forall k v, In k K -> In v V -> open_behind A k v) /\
  (forall k v x, In k K -> In v V -> on_seg k v x -> A x) /\
  (forall k a b, In k K -> In (a, b) (cyc_edges V) -> 0 < area2 k a b).
Proof.
  intros A K V. split; [exists (tri_world dart_tris [(-1, 0)%Q]); exact (tri_faithful dart_tris [(-1, 0)%Q])|]. split; [cbn; lia|]. split; [discriminate|]. split; [|split].
  - intros k v [<-|[]] Hv. unfold V in Hv. apply in_map_iff in Hv as (v' & <- & Hv). apply dart_open.
    repeat destruct Hv as [<-|Hv]; try destruct Hv; vm_compute; reflexivity.
  - intros k v x [<-|[]] Hv Hx. unfold V in Hv. apply in_map_iff in Hv as (v' & <- & Hv).
    assert (G : exists t, In t dart_tris /\ tri_inb (-1, 0)%Q t = true /\ tri_inb v' t = true).
    { repeat destruct Hv as [<-|Hv]; try destruct Hv;
        first [exists ((-2, 0), (3, -3), (0, 0))%Q; split; [simpl; auto|]; split; vm_compute; reflexivity
              |exists ((-2, 0), (0, 0), (3, 3))%Q; split; [simpl; auto|]; split; vm_compute; reflexivity]. }
    destruct G as ([[a b] c] & Ht & Gk & Gv). exists (a, b, c). split; auto. cbn [tri_in tri_inb] in *. destruct Hx as (s & Hs & ->).
    rewrite !andb_true_iff, !geb_R, <- !areaQ_R in Gk, Gv. destruct Gk as [[K1 K2] K3], Gv as [[V1 V2] V3].
    assert (L : forall p q a b : Pt, 0 <= area2 a b p -> 0 <= area2 a b q -> 0 <= area2 a b (along p q s)).
    { intros p q a' b' Hp Hq. replace (area2 a' b' (along p q s)) with ((1 - s) * area2 a' b' p + s * area2 a' b' q) by (destruct p, q, a', b'; unv; ring).
      pose proof (Rmult_le_pos (1 - s) _ ltac:(lra) Hp). pose proof (Rmult_le_pos s _ ltac:(lra) Hq). lra. }
    repeat split; apply L; auto.
  - intros k a b [<-|[]] H. assert (E : In (a, b) (map (fun e => (qp (fst e), qp (snd e))) (cyc_edges dart))) by exact H.
    apply in_map_iff in E as ([a' b'] & E & I). cbn [fst snd] in E. assert (Ea : qp a' = a) by congruence. assert (Eb : qp b' = b) by congruence. subst a b.
    rewrite areaQ_R. apply posb_R. unfold cyc_edges, dart in I. cbn [combine app] in I. repeat destruct I as [I|I]; try contradiction;
      assert (Xa := f_equal fst I); assert (Xb := f_equal snd I); cbn [fst snd] in Xa, Xb; subst a' b'; vm_compute; reflexivity.
Qed.
Print Assumptions C93_already_starshaped_partial.

(** *** C94 where the vertex list begins and which way it runs does not matter *)
Theorem C94_ring_start : forall W K (V V' l1 : list (pt R)) p (l2 : list (pt R)), V = l1 ++ p :: l2 -> l1 ++ l2 <> [] -> (forall q, In q (l1 ++ l2) -> fst q < fst p) ->
  rotation V V' -> polygon_kernel_starshaped_hull W K V' = polygon_kernel_starshaped_hull W K V.
Proof.
  intros W K V V' l1 p l2 -> Ne Hp H. unfold polygon_kernel_starshaped_hull. destruct K as [|k0 K']; [reflexivity|]. unfold hull_from.
  destruct (rotation_split _ _ _ _ H) as (m1 & m2 & -> & E). rewrite !arrange_split; auto.
  - rewrite E. reflexivity.
  - intros X. apply app_eq_nil in X as [-> ->]. auto.
  - intros q Hq. apply Hp. rewrite in_app_iff in *. assert (I : In q (m2 ++ m1)) by (apply in_app_iff; tauto). rewrite E, in_app_iff in I. tauto.
  - rewrite E. intros X. apply app_eq_nil in X as [-> ->]. auto.
Qed.
Theorem C94_ring_direction : forall W K (V V' l1 : list (pt R)) p (l2 : list (pt R)), V = l1 ++ p :: l2 -> l1 ++ l2 <> [] -> (forall q, In q (l1 ++ l2) -> fst q < fst p) ->
  (forall a b, In (a, p) (cyc_edges V) -> In (p, b) (cyc_edges V) -> TH < Rabs (area2 a p b)) ->
  rotation (rev V) V' -> polygon_kernel_starshaped_hull W K V' = polygon_kernel_starshaped_hull W K V.
Proof.
  intros W K V V' l1 p l2 EV Ne Hp Ht H.
  assert (Er : rev V = rev l2 ++ p :: rev l1) by (rewrite EV, rev_app_distr; cbn [rev]; rewrite <- app_assoc; reflexivity).
  assert (Hp' : forall q, In q (rev l2 ++ rev l1) -> fst q < fst p).
  { intros q Hq. apply Hp. rewrite <- rev_app_distr, <- in_rev in Hq. auto. }
  assert (Ne' : rev l2 ++ rev l1 <> []).
  { rewrite <- rev_app_distr. intros X. apply Ne. rewrite <- (rev_involutive (l1 ++ l2)), X. reflexivity. }
  rewrite (C94_ring_start W K (rev V) V' (rev l2) p (rev l1) Er Ne' Hp' H). rewrite Er, EV.
  unfold polygon_kernel_starshaped_hull. destruct K as [|k0 K']; [reflexivity|]. unfold hull_from.
  rewrite !arrange_split; auto.
  - rewrite <- rev_app_distr. rewrite arranged_rev; [reflexivity|].
    assert (Rt : rotation V (p :: l2 ++ l1)).
    { exists (length l1). rewrite EV. rewrite skipn_app, firstn_app, Nat.sub_diag, skipn_all, firstn_all. cbn [skipn firstn app]. rewrite app_nil_r. reflexivity. }
    remember (l2 ++ l1) as m eqn:Em. destruct (exists_last_or_nil m) as [->|(m' & z & E)].
    { exfalso. symmetry in Em. apply app_eq_nil in Em as [-> ->]. auto. }
    apply Ht.
    + rewrite E, last_last. apply (cyc_rotation _ _ _ Rt). rewrite E. apply cyc_wrap.
    + apply (cyc_rotation _ _ _ Rt). rewrite E. destruct m' as [|c m']; cbn [app hd]; left; reflexivity.
  - intros X. apply app_eq_nil in X as [-> ->]. auto.
  - intros X. apply app_eq_nil in X as [X1 X2]. apply Ne'. rewrite X1, X2. reflexivity.
Qed.
Print Assumptions C94_ring_start.
Print Assumptions C94_ring_direction.
Example C94_example : let V := map qp [(-2, 0); (3, -3); (0, 0); (2, 3)]%Q in
  (exists l1 p l2, V = l1 ++ p :: l2 /\ l1 ++ l2 <> [] /\ (forall q, In q (l1 ++ l2) -> fst q < fst p) /\
    forall a b, In (a, p) (cyc_edges V) -> In (p, b) (cyc_edges V) -> TH < Rabs (area2 a p b)) /\
  exists V', rotation (rev V) V' /\ V' <> V.
Proof.
  intros V. split.
  - exists [qp (-2, 0)%Q], (qp (3, -3)%Q), [qp (0, 0)%Q; qp (2, 3)%Q]. split; [reflexivity|]. split; [discriminate|].
    unfold V. cbn [map app cyc_edges combine In]. unfold qp, Q2R. cbn [fst snd Qnum Qden].
    split; [intros q H; repeat destruct H as [<-|H]; try destruct H; cbn [fst]; lra|].
    intros a b Ha Hb. unfold TH.
    assert (Ea : a = (-2 * / 1, 0 * / 1)).
    { repeat destruct Ha as [Ha|Ha]; try contradiction; pose proof (f_equal fst Ha) as X; pose proof (f_equal (fun e => fst (snd e)) Ha) as Y; cbn [fst snd] in X, Y; [auto|lra..]. }
    assert (Eb : b = (0 * / 1, 0 * / 1)).
    { repeat destruct Hb as [Hb|Hb]; try contradiction; pose proof (f_equal snd Hb) as X; pose proof (f_equal (fun e => fst (fst e)) Hb) as Y; cbn [fst snd] in X, Y; [lra|auto|lra..]. }
    rewrite Ea, Eb. unv. unfold Rabs. destruct (Rcase_abs _); lra.
  - exists (rev V). split; [exists 0%nat; cbn [skipn firstn]; rewrite app_nil_r; reflexivity|].
    unfold V. cbn [map rev app]. unfold qp, Q2R. cbn [fst snd Qnum Qden]. intros H. injection H. lra.
Qed.
