(** Properties of starshaped polygons: C54-C57, C79, C80. *)
From Coq Require Import Reals Lra Lia Psatz List Bool Arith Permutation ZArith.
From Verif Require Import Num Spec M_Cg M_ConePolygon M_Motion M_Obstacle M_Ellipse M_Polygon M_StarPolygon L_Geom L_Polar L_Cg L_Atan2 L_Cone L_Obstacle L_Ellipse L_Polygon L_StarPolygon P_Polygon.
Import ListNotations.
Local Open Scope R_scope.
Local Arguments affine_transform : simpl never.

(** objects obtained by constructing from the vertices [v] and then calling set_xr any number of times *)
Inductive history (argsort : list R -> list nat) (m : option mm) (v : list Pt) : starpol -> Prop :=
| history_new xr : history argsort m v (sp_new argsort m v xr)
| history_set s z fi s' : history argsort m v s -> good fi -> sp_set_xr argsort (shown m fi z) fi s = Ret s' -> history argsort m v s'.

(** C54 *)
Theorem C54_vertex_angles : forall argsort m (v : list Pt) s, (forall l, sorts l (argsort l)) -> v <> [] -> history argsort m v s ->
  Permutation v (s_vertices s) /\ ascending (vertex_angle (s_xr s)) (s_vertices s) /\
  s_angles s = map (vertex_angle (s_xr s)) (s_vertices s) ++ [vertex_angle (s_xr s) (hd (0, 0) (s_vertices s)) + 2 * PI] /\
  s_mm s = m /\ (forall p, p <> s_xr s -> sees (s_xr s) p (vertex_angle (s_xr s) p) /\ - PI < vertex_angle (s_xr s) p <= PI).
Proof.
  intros argsort m v s A NE H. assert (HD : forall l : list Pt, nth 0 l (0, 0) = hd (0, 0) l) by (intros []; reflexivity).
  rewrite <- HD. induction H as [xr|s z fi s' H IH G E].
  - unfold sp_new. cbv zeta. cbn [s_vertices s_xr s_angles s_mm]. destruct (table_angles argsort xr v A) as (P & S & T).
    split; [exact P|]. split; [exact S|]. split; [exact (T NE)|]. split; [reflexivity|apply vertex_angle_sees].
  - destruct IH as (P & _ & _ & M & _). unfold sp_set_xr in E. rewrite M, from_shown in E by exact G. cbn [bind] in E. cbv zeta in E. injection E as <-.
    cbn [s_vertices s_xr s_angles s_mm]. destruct (table_angles argsort z (s_vertices s) A) as (P' & S & T).
    split; [eapply Permutation_trans; eassumption|]. split; [exact S|]. split; [|split; [reflexivity|apply vertex_angle_sees]].
    apply T. intros Z. rewrite Z in P. apply Permutation_sym, Permutation_nil in P. congruence.
Qed.
Print Assumptions C54_vertex_angles.
(** set_xr always succeeds and stores the given point *)
Theorem C54_set_xr : forall argsort m v s z fi, (forall l, sorts l (argsort l)) -> v <> [] -> history argsort m v s -> good fi ->
  exists s', sp_set_xr argsort (shown m fi z) fi s = Ret s' /\ s_xr s' = z /\ s_diam s' = s_diam s.
Proof.
  intros argsort m v s z fi A NE H G. destruct (C54_vertex_angles argsort m v s A NE H) as (_ & _ & _ & M & _).
  unfold sp_set_xr. rewrite M, from_shown by exact G. cbn [bind]. cbv zeta. eauto.
Qed.
Print Assumptions C54_set_xr.
(** when the boundary runs around xr once, the table lists the vertices in boundary order *)
Theorem C54_table_follows_boundary : forall argsort m (v v' : list Pt) s, (forall l, sorts l (argsort l)) -> v <> [] -> history argsort m v s ->
  v' = v \/ v' = rev v -> ccw_around (s_xr s) v' -> rotation v' (s_vertices s).
Proof.
  intros argsort m v v' s A NE H V (ts & F & SA & LT). destruct (C54_vertex_angles argsort m v s A NE H) as (P & S & _ & _ & _).
  set (x := s_xr s) in *.
  assert (P' : Permutation v' (s_vertices s)) by (destruct V as [->| ->]; [exact P|eapply Permutation_trans; [apply Permutation_sym, Permutation_rev|exact P]]).
  assert (NE' : v' <> []) by (intros Z; rewrite Z in P'; apply Permutation_nil in P'; rewrite P' in P; apply Permutation_sym, Permutation_nil in P; congruence).
  clear P V H. destruct v' as [|p0 l]; [congruence|]. inversion F as [|? t0 ? ts0 S0 F0]; subst. cbn [hd] in LT.
  assert (N0 : p0 <> x). { intros ->. apply sees_ne in S0. apply S0. destruct x; unfold vsub; cbn [fst snd]. apply pair_eq; ring. }
  destruct (vertex_angle_sees x p0 N0) as [S0' B0]. destruct (sees_mod _ _ _ _ S0' S0) as (k & K).
  (* shift the angles so that the first is the recorded one *)
  set (us := map (fun t => t + 2 * PI * IZR k) (t0 :: ts0)).
  assert (FU : Forall2 (sees x) (p0 :: l) us).
  { unfold us. clear - F. induction F as [|p t l_ ts_ S_ F_ IH]; cbn [map]; constructor; [|exact IH]. destruct S_ as (r & Hr & E). exists r. split; [exact Hr|]. rewrite polar_shift_Z. exact E. }
  assert (SU : strictly_ascending (fun t => t) us).
  { unfold us, strictly_ascending. apply fop_map. eapply fop_impl; [|exact SA]. intros; cbn in *; lra. }
  assert (BU : forall u, In u us -> vertex_angle x p0 <= u < vertex_angle x p0 + 2 * PI).
  { intros u Hu. unfold us in Hu. apply in_map_iff in Hu as (t & <- & Ht). specialize (LT t Ht). inversion SA as [|? ? F1 _]; subst. rewrite Forall_forall in F1.
    split; [|lra]. destruct Ht as [<-|Ht]; [lra|]. specialize (F1 t Ht). cbn in F1. lra. }
  clear F F0 SA LT S0 K. clearbody us. set (v' := p0 :: l) in *.
  (* vertices before and after the cut *)
  assert (CUT : exists n, (forall u, In u (firstn n us) -> u <= PI) /\ (forall u, In u (skipn n us) -> PI < u)).
  { clear - SU. induction SU as [|u us F SU (n & A & B)]; [exists 0%nat; split; intros ? []|].
    destruct (Rle_or_lt u PI) as [L|L]; [exists (S n); cbn [firstn skipn]; split; [intros y [<-|Hy]; auto|exact B]|].
    exists 0%nat. cbn [firstn skipn]. split; [intros ? []|]. intros y [<-|Hy]; [exact L|]. rewrite Forall_forall in F. specialize (F y Hy). cbn in F. lra. }
  destruct CUT as (n & C1 & C2). exists n. symmetry in P'.
  assert (FA : Forall2 (sees x) (firstn n v') (firstn n us) /\ Forall2 (sees x) (skipn n v') (skipn n us)).
  { clear - FU. revert n. induction FU as [|p t l_ ts_ S_ F_ IH]; intros [|n]; cbn [firstn skipn]; try (split; constructor; assumption).
    destruct (IH n) as [A B]. split; [constructor; assumption|exact B]. }
  destruct FA as [FA FB].
  assert (EA : map (vertex_angle x) (firstn n v') = firstn n us).
  { assert (B1 : forall u, In u (firstn n us) -> - PI < u <= PI).
    { intros u Hu. split; [|apply C1; exact Hu]. assert (In u us) by (rewrite <- (firstn_skipn n us); apply in_or_app; left; exact Hu). specialize (BU u H). lra. }
    clear - FA B1. induction FA as [|p t l_ ts_ S_ F_ IH]; [reflexivity|]. cbn [map]. f_equal; [apply angle_unique; [exact S_|apply B1; left; reflexivity]|].
    apply IH. intros; apply B1; right; assumption. }
  assert (EB : map (vertex_angle x) (skipn n v') = map (fun u => u - 2 * PI) (skipn n us)).
  { assert (B1 : forall u, In u (skipn n us) -> - PI < u - 2 * PI <= PI).
    { intros u Hu. specialize (C2 u Hu). assert (In u us) by (rewrite <- (firstn_skipn n us); apply in_or_app; right; exact Hu). specialize (BU u H). lra. }
    clear - FB B1. induction FB as [|p t l_ ts_ S_ F_ IH]; [reflexivity|]. cbn [map]. f_equal; [apply angle_unique; [|apply B1; left; reflexivity]|].
    - destruct S_ as (r & Hr & E). exists r. split; [exact Hr|]. rewrite polar_shift_m. exact E.
    - apply IH. intros; apply B1; right; assumption. }
  assert (FO : forall (l : list R) j, ForallOrdPairs (fun a b => a < b) l -> ForallOrdPairs (fun a b => a < b) (firstn j l) /\ ForallOrdPairs (fun a b => a < b) (skipn j l)).
  { clear. intros l j H. revert j. induction H as [|a l F H IH]; intros [|j]; cbn [firstn skipn]; try (split; constructor; assumption).
    - destruct (IH j) as [A B]. split; [constructor; [|exact A]|exact B]. rewrite Forall_forall in *. intros y Hy. apply F. rewrite <- (firstn_skipn j l). apply in_or_app. left. exact Hy. }
  destruct (FO us n SU) as [O1 O2].
  apply (sorted_unique (vertex_angle x)); [exact S| |].
  - unfold strictly_ascending. apply (fop_map (vertex_angle x) (fun a b => a < b)). rewrite map_app, EA, EB. apply fop_app; [|exact O1|].
    + apply fop_map. eapply fop_impl; [|exact O2]. intros; cbn in *; lra.
    + intros a b Ha Hb. apply in_map_iff in Ha as (u & <- & Hu).
      assert (I1 : In u us) by (rewrite <- (firstn_skipn n us); apply in_or_app; right; exact Hu).
      assert (I2 : In b us) by (rewrite <- (firstn_skipn n us); apply in_or_app; left; exact Hb).
      apply BU in I1, I2. lra.
  - eapply Permutation_trans; [exact P'|]. rewrite <- (firstn_skipn n v') at 1. apply Permutation_app_comm.
Qed.
Print Assumptions C54_table_follows_boundary.
(** a sorting function as assumed of np.argsort exists *)
Fixpoint insert_by (f : nat -> R) (i : nat) (l : list nat) : list nat :=
  match l with [] => [i] | j :: r => if Rleb (f i) (f j) then i :: j :: r else j :: insert_by f i r end.
Definition insertion_argsort (l : list R) : list nat := fold_right (insert_by (fun i => nth i l 0)) [] (seq 0 (length l)).
Theorem C54_argsort_exists : forall l, sorts l (insertion_argsort l).
Proof.
  intros l. unfold insertion_argsort, sorts. set (f := fun i => nth i l 0). generalize (seq 0 (length l)) as s.
  assert (P : forall i r, Permutation (insert_by f i r) (i :: r)).
  { intros i r. induction r as [|j r IH]; cbn [insert_by]; [apply Permutation_refl|]. destruct (Rleb (f i) (f j)); [apply Permutation_refl|].
    eapply Permutation_trans; [apply perm_skip, IH|apply perm_swap]. }
  induction s as [|i s [IP IA]]; cbn [fold_right]; [split; [constructor|constructor]|]. split.
  - eapply Permutation_trans; [apply P|apply perm_skip, IP].
  - revert IA. generalize (fold_right (insert_by f) [] s) as r. induction r as [|j r IH]; intros IA; cbn [insert_by]; [constructor; constructor|].
    inversion IA as [|? ? F IA']; subst. rewrite Forall_forall in F. destruct (Rleb_spec (f i) (f j)) as [L|L].
    + constructor; [|exact IA]. rewrite Forall_forall. intros y [<-|Hy]; [exact L|]. specialize (F y Hy). lra.
    + constructor; [|apply IH; exact IA']. rewrite Forall_forall. intros y Hy. apply (Permutation_in _ (P i r)) in Hy. destruct Hy as [<-|Hy]; [lra|apply F; exact Hy].
Qed.
Print Assumptions C54_argsort_exists.
Example C54_example : ccw_around (0, 0) [(1, 0); (0, 1); (-1, 0); (0, -1)].
Proof.
  exists [0; PI / 2; PI; 3 * (PI / 2)]. pose proof PI_RGT_0. split; [|split].
  - repeat constructor; exists 1; (split; [lra|]); unfold polar, vsub; cbn [fst snd]; apply pair_eq.
    + rewrite cos_0; ring. + rewrite sin_0; ring. + rewrite cos_PI2; ring. + rewrite sin_PI2; ring.
    + rewrite cos_PI; ring. + rewrite sin_PI; ring. + rewrite cos_3PI2; ring. + rewrite sin_3PI2; ring.
  - repeat constructor; lra.
  - cbn [hd]. intros t [<-|[<-|[<-|[<-|[]]]]]; lra.
Qed.

(** C55: [u], [w] are consecutive in the table, [x] is seen between them, and no vertex is seen strictly between them *)
Definition faces (x0 u w x : Pt) (vs : list Pt) : Prop :=
  exists tu tx tw, sees x0 u tu /\ sees x0 x tx /\ sees x0 w tw /\ tu <= tx < tw /\ tw <= tu + 2 * PI /\
    forall p t, In p vs -> sees x0 p t -> ~ tu < t < tw.
Lemma facing_spec (s : starpol) (x : Pt) : let n := length (s_vertices s) in
  (0 < n)%nat -> ascending (vertex_angle (s_xr s)) (s_vertices s) ->
  s_angles s = map (vertex_angle (s_xr s)) (s_vertices s) ++ [vertex_angle (s_xr s) (hd (0, 0) (s_vertices s)) + 2 * PI] ->
  (forall p, In p (s_vertices s) -> p <> s_xr s) -> x <> s_xr s ->
  (facing s x < n)%nat /\ faces (s_xr s) (vert s (pred_idx (facing s x) n)) (vert s (facing s x)) x (s_vertices s).
Proof.
  cbv zeta. intros N SA TA NV NX. set (n := length (s_vertices s)) in *. set (x0 := s_xr s) in *.
  set (as_ := map (vertex_angle x0) (s_vertices s)) in *. assert (LA : length as_ = n) by apply map_length.
  assert (VS : forall i, (i < n)%nat -> sees x0 (vert s i) (nth i as_ 0) /\ - PI < nth i as_ 0 <= PI).
  { intros i Hi. unfold as_, vert. rewrite (nth_indep _ 0 (vertex_angle x0 (0, 0))) by (rewrite map_length; exact Hi). rewrite map_nth.
    apply vertex_angle_sees, NV, nth_In. exact Hi. }
  assert (H0 : vertex_angle x0 (hd (0, 0) (s_vertices s)) = nth 0 as_ 0). { unfold as_. destruct (s_vertices s); [cbn in n; lia|reflexivity]. }
  rewrite H0 in TA. destruct (vertex_angle_sees x0 x NX) as [SX BX]. set (a := vertex_angle x0 x) in *.
  assert (FO : ForallOrdPairs Rle as_) by (unfold as_; apply fop_map; exact SA).
  assert (MON : forall i j, (i <= j)%nat -> (j < n)%nat -> nth i as_ 0 <= nth j as_ 0).
  { intros i j I J. destruct (Nat.eq_dec i j) as [->|]; [lra|]. apply (fop_nth Rle); [exact FO|lia|lia]. }
  assert (SEEN : forall p t, In p (s_vertices s) -> sees x0 p t -> exists j k, (j < n)%nat /\ t = nth j as_ 0 + 2 * PI * IZR k).
  { intros p t Hp St. apply (In_nth _ _ (0, 0)) in Hp as (j & Hj & <-). destruct (VS j Hj) as [Sj _]. destruct (sees_mod _ _ _ _ St Sj) as (k & K). eauto. }
  assert (INNER : forall i p t, (i + 1 < n)%nat -> In p (s_vertices s) -> sees x0 p t -> ~ nth i as_ 0 < t < nth (i + 1) as_ 0).
  { intros i p t Hi Hp St B. destruct (SEEN p t Hp St) as (j & k & Hj & E).
    destruct (VS j Hj) as [_ Bj]. destruct (VS i ltac:(lia)) as [_ Bi]. destruct (VS (i + 1)%nat Hi) as [_ Bi'].
    assert (Y : t - nth j as_ 0 = 2 * PI * IZR k) by lra. apply z_unique in Y; [|lra].
    destruct (Nat.le_gt_cases j i) as [L|L]; [pose proof (MON j i L ltac:(lia))|pose proof (MON (i + 1)%nat j ltac:(lia) Hj)]; lra. }
  assert (OUTER : forall p t, In p (s_vertices s) -> sees x0 p t -> ~ nth (n - 1) as_ 0 < t < nth 0 as_ 0 + 2 * PI).
  { intros p t Hp St B. destruct (SEEN p t Hp St) as (j & k & Hj & E). pose proof (MON 0%nat j ltac:(lia) Hj) as M0. pose proof (MON j (n - 1)%nat ltac:(lia) ltac:(lia)) as M1.
    destruct (VS j Hj) as [_ Bj]. pose proof PI_RGT_0.
    assert (Y : IZR k * (2 * PI) = t - nth j as_ 0) by lra.
    assert (K : 0 < IZR k < 1) by (split; nra). assert (0 < k)%Z by (apply lt_IZR; lra). assert (k < 1)%Z by (apply lt_IZR; lra). lia. }
  assert (WRAP : forall t, sees x0 x t -> nth (n - 1) as_ 0 <= t < nth 0 as_ 0 + 2 * PI -> faces x0 (vert s (n - 1)) (vert s 0) x (s_vertices s)).
  { intros t St Bt. exists (nth (n - 1) as_ 0), t, (nth 0 as_ 0 + 2 * PI). destruct (VS (n - 1)%nat ltac:(lia)) as [S1 _]. destruct (VS 0%nat N) as [S2 _].
    split; [exact S1|]. split; [exact St|]. split; [destruct S2 as (r & Hr & E); exists r; split; [exact Hr|rewrite polar_shift; exact E]|].
    split; [exact Bt|]. split; [pose proof (MON 0%nat (n - 1)%nat ltac:(lia) ltac:(lia)); lra|exact OUTER]. }
  unfold facing. fold x0. fold a. fold n. rewrite TA. pose proof (first_above_spec a (as_ ++ [nth 0 as_ 0 + 2 * PI])) as FS.
  destruct (VS 0%nat N) as [_ B0].
  destruct (first_above a (as_ ++ [nth 0 as_ 0 + 2 * PI])) as [i|].
  2:{ exfalso. specialize (FS (nth 0 as_ 0 + 2 * PI) ltac:(apply in_or_app; right; left; reflexivity)). lra. }
  destruct FS as (Li & Ai & Bi). rewrite app_length, LA in Li. cbn [length] in Li.
  destruct (Nat.eqb_spec i n) as [E|E].
  - split; [exact N|]. cbn [pred_idx]. apply (WRAP a SX). subst i. specialize (Bi (n - 1)%nat ltac:(lia)). rewrite app_nth1 in Bi by lia. lra.
  - assert (Hi : (i < n)%nat) by lia. split; [exact Hi|]. rewrite app_nth1 in Ai by lia. destruct i as [|i].
    + cbn [pred_idx]. apply (WRAP (a + 2 * PI)); [destruct SX as (r & Hr & EX); exists r; split; [exact Hr|rewrite polar_shift; exact EX]|].
      destruct (VS (n - 1)%nat ltac:(lia)) as [_ B1]. lra.
    + cbn [pred_idx]. specialize (Bi i ltac:(lia)). rewrite app_nth1 in Bi by lia.
      exists (nth i as_ 0), a, (nth (S i) as_ 0). destruct (VS i ltac:(lia)) as [S1 B1]. destruct (VS (S i) Hi) as [S2 B2].
      split; [exact S1|]. split; [exact SX|]. split; [exact S2|]. split; [lra|]. split; [lra|].
      intros p t Hp St. rewrite <- (Nat.add_1_r i). apply (INNER i p t); [lia|exact Hp|exact St].
Qed.
(** between two directions less than half a turn apart *)
Lemma faces_cone x0 u w x vs : faces x0 u w x vs -> 0 < area2 x0 u w -> 0 <= area2 x0 u x /\ 0 < area2 x0 x w.
Proof.
  intros (tu & tx & tw & (ru & Ru & U) & (rx & Rx & X) & (rw & Rw & W) & B & B' & _) A. unfold area2 in *.
  rewrite U, W, cross_polar in A. rewrite U, W, X, !cross_polar. pose proof PI_RGT_0.
  assert (P : 0 < ru * rw) by nra. assert (SP : 0 < sin (tw - tu)) by (apply Rnot_le_lt; intros Z; nra).
  destruct (Rlt_or_le (tw - tu) (2 * PI)) as [L|L].
  - destruct (sin_sign_pos (tw - tu) ltac:(lra) SP) as [_ Q].
    pose proof (sin_ge_0 (tx - tu) ltac:(lra) ltac:(lra)). pose proof (sin_gt_0 (tw - tx) ltac:(lra) ltac:(lra)).
    split; [apply Rmult_le_pos; [nra|assumption]|apply Rmult_lt_0_compat; [nra|assumption]].
  - replace (tw - tu) with (0 + 2 * PI) in SP by lra. rewrite sin_plus, cos_2PI, sin_2PI, sin_0 in SP. lra.
Qed.
Lemma table_edge s k : (k < length (s_vertices s))%nat -> In (vert s (pred_idx k (length (s_vertices s))), vert s k) (cyc_edges (s_vertices s)).
Proof.
  intros Hf. unfold vert. destruct (s_vertices s) as [|p l]; [cbn in Hf; lia|]. cbn [cyc_edges].
  assert (Q : (nth (pred_idx k (length (p :: l))) (p :: l) (0, 0), nth k (p :: l) (0, 0)) = nth (pred_idx k (length (p :: l))) (combine (p :: l) (l ++ [p])) ((0, 0), (0, 0))).
  { rewrite combine_nth by (rewrite app_length; cbn [length]; lia). f_equal. destruct k as [|k]; cbn [pred_idx length].
    - replace (S (length l) - 1)%nat with (length l) by lia. rewrite app_nth2, Nat.sub_diag by lia. reflexivity.
    - cbn [nth length] in *. rewrite app_nth1 by lia. reflexivity. }
  rewrite Q. apply nth_In. rewrite combine_length, app_length. cbn [length] in *. destruct k; cbn [pred_idx]; lia.
Qed.
Lemma edge_normal_spec nearest m s k x fo : good fo -> s_mm s = m ->
  let u := vert s (pred_idx k (length (s_vertices s))) in let w := vert s k in
  let r := bind (normal_at nearest s k Edge x) (fun n => rotate m n OBSTACLE fo) in
  (u = w -> r = Exn NotFinite) /\
  (r = Exn NotFinite \/ exists n, r = Ret n /\ norm n = 1 /\ dot n (vsub (shown m fo w) (shown m fo u)) = 0 /\
     dot n (vsub (shown m fo u) (shown m fo (s_xr s))) * dist u w = area2 (s_xr s) u w /\
     (0 < area2 (s_xr s) u w -> 0 < dot n (vsub (shown m fo u) (shown m fo (s_xr s))))) /\ (u <> w -> exists n, r = Ret n).
Proof.
  intros Ho M. cbn [normal_at]. cbv zeta. set (n := length (s_vertices s)). set (u := vert s (pred_idx k n)). set (w := vert s k).
  assert (OB : good OBSTACLE) by (right; reflexivity).
  assert (ND : np_norm (edge_normal u w) = dist u w).
  { rewrite np_norm_norm. unfold dist, norm, edge_normal, vsub, norm2, dot. cbn [fst snd]. f_equal. ring. }
  rewrite ND.
  assert (Z : u = w -> dist u w = 0).
  { intros ->. unfold dist, norm, vsub, norm2, dot; cbn [fst snd]; match goal with |- sqrt ?e = 0 => replace e with 0 by ring end; apply sqrt_0. }
  assert (DP' : u <> w -> 0 < dist u w).
  { intros UW. unfold dist. apply norm_pos. intros Z'. apply UW. unfold vsub in Z'. injection Z' as Z1 Z2. destruct u, w; cbn [fst snd] in *. apply pair_eq; lra. }
  destruct (Reqb_spec (dist u w) 0) as [E0|E0]; cbn [bind].
  { split; [reflexivity|]. split; [left; reflexivity|]. intros UW. specialize (DP' UW). lra. }
  assert (UW : u <> w) by (intros E; apply E0, Z, E). assert (DP := DP' UW).
  destruct (rotate_good m (scale (/ dist u w) (edge_normal u w)) OBSTACLE fo OB Ho) as (al & Q & V). rewrite Q.
  split; [intros E; contradiction|]. split; [|eauto]. right.
  eexists. split; [reflexivity|].
  assert (DV : forall p q, dot (rotv al (scale (/ dist u w) (edge_normal u w))) (vsub (shown m fo p) (shown m fo q)) = / dist u w * dot (edge_normal u w) (vsub p q)).
  { intros p q. rewrite (V p q (shown m fo p) (shown m fo q)); [|rewrite <- to_frame_shown by exact Ho; apply to_frame_ok; exact Ho ..].
    unfold dot, rotv, scale, edge_normal, vsub. cbn [fst snd]. pose proof (sin2_cos2 al) as S. unfold Rsqr in S. set (c := cos al) in *. set (z := sin al) in *.
    match goal with |- ?L = ?R => replace L with (R * (z * z + c * c)) by ring; rewrite S; ring end. }
  assert (AR : dot (edge_normal u w) (vsub u (s_xr s)) = area2 (s_xr s) u w).
  { unfold dot, edge_normal, vsub, area2, cross, vsub. cbn [fst snd]. ring. }
  assert (ID : 0 < / dist u w) by (apply Rinv_0_lt_compat; exact DP).
  split; [|split; [|split]].
  - rewrite rotv_norm. change (scale (/ dist u w) (edge_normal u w)) with (smul (/ dist u w) (edge_normal u w)). rewrite norm_smul, <- (np_norm_norm (edge_normal u w)), ND.
    rewrite Rabs_right by lra. field. lra.
  - rewrite DV. unfold dot, edge_normal, vsub. cbn [fst snd]. ring.
  - rewrite DV, AR. field. lra.
  - intros C. rewrite DV, AR. apply Rmult_lt_0_compat; assumption.
Qed.
Theorem C55_normal : forall nearest argsort m (v : list Pt) s x fi fo, (forall l, sorts l (argsort l)) -> v <> [] -> history argsort m v s ->
  (forall p, In p v -> p <> s_xr s) -> x <> s_xr s -> good fi -> good fo ->
  exists u w, In (u, w) (cyc_edges (s_vertices s)) /\ faces (s_xr s) u w x v /\
    (u = w -> sp_normal nearest s (shown m fi x) fi fo Edge = Exn NotFinite) /\
    (u <> w -> exists n, sp_normal nearest s (shown m fi x) fi fo Edge = Ret n /\ norm n = 1 /\
       dot n (vsub (shown m fo w) (shown m fo u)) = 0 /\
       dot n (vsub (shown m fo u) (shown m fo (s_xr s))) * dist u w = area2 (s_xr s) u w /\
       (0 < area2 (s_xr s) u w -> 0 < dot n (vsub (shown m fo u) (shown m fo (s_xr s))) /\ 0 <= area2 (s_xr s) u x /\ 0 < area2 (s_xr s) x w)).
Proof.
  intros nearest argsort m v s x fi fo A NE H NV NX Hi Ho.
  destruct (C54_vertex_angles argsort m v s A NE H) as (P & SA & TA & M & _).
  assert (N : (0 < length (s_vertices s))%nat) by (apply Permutation_length in P; rewrite <- P; destruct v; [congruence|cbn; lia]).
  assert (NV' : forall p, In p (s_vertices s) -> p <> s_xr s) by (intros p Hp; apply NV, (Permutation_in _ (Permutation_sym P)), Hp).
  destruct (facing_spec s x N SA TA NV' NX) as [Hf F].
  destruct (edge_normal_spec nearest m s (facing s x) x fo Ho M) as (E1 & E2 & E3). cbv zeta in *.
  unfold sp_normal. rewrite M, from_shown by exact Hi. cbn [bind].
  set (k := facing s x) in *. set (n := length (s_vertices s)) in *. set (u := vert s (pred_idx k n)) in *. set (w := vert s k) in *.
  exists u, w. split; [apply table_edge; exact Hf|].
  split. { destruct F as (a & b & c & F1 & F2 & F3 & F4 & F5 & F6). exists a, b, c. repeat (split; [assumption|]). intros p t Hp. apply F6. apply (Permutation_in _ P Hp). }
  split; [exact E1|]. intros UW. destruct (E3 UW) as (r & Er). destruct E2 as [E2|(r' & E2 & G1 & G2 & G3 & G4)]; [congruence|].
  exists r'. split; [exact E2|]. repeat (split; [assumption|]). intros C. split; [exact (G4 C)|exact (faces_cone _ _ _ _ _ F C)].
Qed.
Print Assumptions C55_normal.
(** the facing edge is an edge of the polygon when the boundary runs around xr once *)
Lemma combine_app {A B} (p : list A) (q : list B) r t : length p = length q -> combine (p ++ r) (q ++ t) = combine p q ++ combine r t.
Proof. revert q. induction p as [|a p IH]; intros [|b q] L; try discriminate; cbn [app combine]; [reflexivity|]. f_equal. apply IH. injection L as L. exact L. Qed.
Lemma cyc_edges_rotation {A} (l l' : list A) e : rotation l l' -> In e (cyc_edges l') -> In e (cyc_edges l).
Proof.
  intros (k & ->).
  assert (G : forall (a b : list A) x y, cyc_edges (x :: a ++ y :: b) = combine (x :: a) (a ++ [y]) ++ combine (y :: b) (b ++ [x])).
  { intros a b x y. cbn [cyc_edges]. replace ((a ++ y :: b) ++ [x]) with ((a ++ [y]) ++ (b ++ [x])) by (rewrite <- !app_assoc; reflexivity).
    change (x :: a ++ y :: b) with ((x :: a) ++ (y :: b)). apply combine_app. rewrite app_length. cbn [length]. lia. }
  rewrite <- (firstn_skipn k l) at 3. destruct (firstn k l) as [|x a]; [rewrite app_nil_r; auto|]. destruct (skipn k l) as [|y b]; [rewrite app_nil_r; auto|].
  change ((y :: b) ++ x :: a) with (y :: b ++ x :: a). change ((x :: a) ++ y :: b) with (x :: a ++ y :: b). rewrite !G, !in_app_iff. tauto.
Qed.
Theorem C55_facing_edge : forall argsort m (v : list Pt) s x, (forall l, sorts l (argsort l)) -> v <> [] -> history argsort m v s ->
  ccw_around (s_xr s) v -> x <> s_xr s ->
  exists u w, In (u, w) (cyc_edges v) /\ faces (s_xr s) u w x v /\
    forall nearest fi fo n, good fi -> good fo -> sp_normal nearest s (shown m fi x) fi fo Edge = Ret n ->
      norm n = 1 /\ dot n (vsub (shown m fo w) (shown m fo u)) = 0 /\ (0 < area2 (s_xr s) u w -> 0 < dot n (vsub (shown m fo u) (shown m fo (s_xr s)))).
Proof.
  intros argsort m v s x A NE H CC NX.
  assert (NV : forall p, In p v -> p <> s_xr s).
  { intros p Hp ->. destruct CC as (ts & F & _). clear - F Hp. induction F as [|q t l ts S F IH]; [destruct Hp|]. destruct Hp as [->|Hp]; [|exact (IH Hp)].
    apply sees_ne in S. apply S. destruct (s_xr s); unfold vsub; cbn [fst snd]. apply pair_eq; ring. }
  pose proof (C54_table_follows_boundary argsort m v v s A NE H (or_introl eq_refl) CC) as RT.
  (* the edge does not depend on the frames: take the one of the object frame *)
  destruct (C54_vertex_angles argsort m v s A NE H) as (P & SA & TA & M & _).
  assert (N : (0 < length (s_vertices s))%nat) by (apply Permutation_length in P; rewrite <- P; destruct v; [congruence|cbn; lia]).
  assert (NV' : forall p, In p (s_vertices s) -> p <> s_xr s) by (intros p Hp; apply NV, (Permutation_in _ (Permutation_sym P)), Hp).
  destruct (facing_spec s x N SA TA NV' NX) as [Hf F]. set (k := facing s x) in *. set (n := length (s_vertices s)) in *.
  exists (vert s (pred_idx k n)), (vert s k). set (u := vert s (pred_idx k n)) in *. set (w := vert s k) in *.
  split; [|split].
  - apply (cyc_edges_rotation _ _ _ RT). unfold u, w. apply table_edge. exact Hf.
  - destruct F as (a & b & c & F1 & F2 & F3 & F4 & F5 & F6). exists a, b, c. repeat (split; [assumption|]). intros p t Hp. apply F6. apply (Permutation_in _ P Hp).
  - intros nearest fi fo r Hi Ho E. unfold sp_normal in E. rewrite M, from_shown in E by exact Hi. cbn [bind] in E. fold k in E.
    destruct (edge_normal_spec nearest m s k x fo Ho M) as (_ & [EN|EN] & _); cbv zeta in EN; fold n in EN; fold u w in EN.
    + rewrite EN in E. discriminate.
    + destruct EN as (r' & E' & G1 & G2 & G3 & G4). rewrite E' in E. injection E as <-. split; [exact G1|]. split; [exact G2|exact G4].
Qed.
Print Assumptions C55_facing_edge.
Example C55_example : ccw_around (0, 0) [(4, 0); (0, 4); (-4, 0); (0, -4)] /\ ((10, 10) : Pt) <> (0, 0).
Proof.
  split; [|intros E; injection E as E _; lra].
  exists [0; PI / 2; PI; 3 * (PI / 2)]. pose proof PI_RGT_0. split; [|split].
  - repeat constructor; exists 4; (split; [lra|]); unfold polar, vsub; cbn [fst snd]; apply pair_eq.
    + rewrite cos_0; ring. + rewrite sin_0; ring. + rewrite cos_PI2; ring. + rewrite sin_PI2; ring.
    + rewrite cos_PI; ring. + rewrite sin_PI; ring. + rewrite cos_3PI2; ring. + rewrite sin_3PI2; ring.
  - repeat constructor; lra.
  - cbn [hd]. intros t [<-|[<-|[<-|[<-|[]]]]]; lra.
Qed.

(** C79: the 'weighted_edges' normal is the mean of the outward normals (with the length of the edge) of the facing edge and
    its two neighbours, weighted by the inverse of (distance to x + 1e-6) *)
Theorem C79_weighted_normal_partial : forall nearest argsort m (v : list Pt) s x fi fo, (forall l, sorts l (argsort l)) -> v <> [] -> history argsort m v s ->
  (forall a b y, on_seg a b (nearest a b y) /\ forall p, on_seg a b p -> dist (nearest a b y) y <= dist p y) ->
  (forall p, In p v -> p <> s_xr s) -> x <> s_xr s -> good fi -> good fo ->
  exists p u w q d1 d2 d3 c al,
    In (p, u) (cyc_edges (s_vertices s)) /\ In (u, w) (cyc_edges (s_vertices s)) /\ In (w, q) (cyc_edges (s_vertices s)) /\ faces (s_xr s) u w x v /\
    dist_seg p u x d1 /\ dist_seg u w x d2 /\ dist_seg w q x d3 /\ 0 < c /\ c / (d1 + / 1000000) + c / (d2 + / 1000000) + c / (d3 + / 1000000) = 1 /\
    sp_normal nearest s (shown m fi x) fi fo WeightedEdges =
      Ret (rotv al (wsum [c / (d1 + / 1000000); c / (d2 + / 1000000); c / (d3 + / 1000000)] [right_of (vsub u p); right_of (vsub w u); right_of (vsub q w)])) /\
    forall y z, vsub (shown m fo y) (shown m fo z) = rotv al (vsub y z).
Proof.
  intros nearest argsort m v s x fi fo A NE H NN NV NX Hi Ho.
  destruct (C54_vertex_angles argsort m v s A NE H) as (P & SA & TA & M & _).
  assert (N : (0 < length (s_vertices s))%nat) by (apply Permutation_length in P; rewrite <- P; destruct v; [congruence|cbn; lia]).
  assert (NV' : forall p, In p (s_vertices s) -> p <> s_xr s) by (intros p Hp; apply NV, (Permutation_in _ (Permutation_sym P)), Hp).
  destruct (facing_spec s x N SA TA NV' NX) as [Hf F].
  unfold sp_normal. rewrite M, from_shown by exact Hi. cbn [bind normal_at]. cbv zeta. set (k := facing s x) in *. set (n := length (s_vertices s)) in *.
  cbn [map combine fold_right fst snd].
  assert (K1 : ((k + 0 + n - 1) mod n = pred_idx k n)%nat).
  { rewrite Nat.add_0_r. destruct k as [|k']; cbn [pred_idx]; [rewrite Nat.add_0_l, Nat.mod_small; lia|].
    replace (S k' + n - 1)%nat with (k' + 1 * n)%nat by lia. rewrite Nat.mod_add, Nat.mod_small; lia. }
  assert (K1' : ((k + 1 + 2 * n - 2) mod n = pred_idx k n)%nat).
  { rewrite <- K1. replace (k + 1 + 2 * n - 2)%nat with ((k + 0 + n - 1) + 1 * n)%nat by lia. apply Nat.mod_add. lia. }
  assert (K2 : ((k + 1 + n - 1) mod n = k)%nat) by (replace (k + 1 + n - 1)%nat with (k + 1 * n)%nat by lia; rewrite Nat.mod_add, Nat.mod_small; lia).
  assert (K2' : ((k + 2 + 2 * n - 2) mod n = k)%nat) by (replace (k + 2 + 2 * n - 2)%nat with (k + 2 * n)%nat by lia; rewrite Nat.mod_add, Nat.mod_small; lia).
  rewrite K1, K1', K2, K2'. set (j0 := ((k + 0 + 2 * n - 2) mod n)%nat). set (j3 := ((k + 2 + n - 1) mod n)%nat).
  assert (J3 : (j3 < n)%nat) by (apply Nat.mod_upper_bound; lia).
  assert (PI1 : (pred_idx k n < n)%nat) by (destruct k; cbn [pred_idx]; lia).
  assert (J0 : j0 = pred_idx (pred_idx k n) n).
  { unfold j0. rewrite Nat.add_0_r. clearbody k n. clear - Hf N. destruct k as [|k'].
    - cbn [pred_idx]. rewrite !Nat.add_0_l. destruct (Nat.eq_dec n 1) as [E|E]; [rewrite E; reflexivity|].
      replace (2 * n - 2)%nat with ((n - 2) + 1 * n)%nat by lia. rewrite Nat.mod_add, Nat.mod_small by lia.
      destruct (n - 1)%nat eqn:E'; cbn [pred_idx]; lia.
    - cbn [pred_idx] in *.
      destruct k' as [|k'']; cbn [pred_idx]; [replace (1 + 2 * n - 2)%nat with ((n - 1) + 1 * n)%nat by lia|replace (S (S k'') + 2 * n - 2)%nat with (k'' + 2 * n)%nat by lia]; rewrite Nat.mod_add, Nat.mod_small; lia. }
  assert (J3' : k = pred_idx j3 n).
  { unfold j3. destruct (Nat.eq_dec (k + 1) n) as [E|E].
    - replace (k + 2 + n - 1)%nat with (0 + 2 * n)%nat by lia. rewrite Nat.mod_add, Nat.mod_small by lia. cbn [pred_idx]. lia.
    - replace (k + 2 + n - 1)%nat with ((k + 1) + 1 * n)%nat by lia. rewrite Nat.mod_add, Nat.mod_small by lia. rewrite Nat.add_1_r. reflexivity. }
  set (p := vert s j0). set (u := vert s (pred_idx k n)) in *. set (w := vert s k) in *. set (q := vert s j3).
  set (d1 := np_norm (psub (nearest p u x) x)). set (d2 := np_norm (psub (nearest u w x) x)). set (d3 := np_norm (psub (nearest w q x) x)).
  assert (DS : forall a b, dist_seg a b x (np_norm (psub (nearest a b x) x))).
  { intros a b. destruct (NN a b x) as [Q1 Q2]. rewrite np_norm_norm. split; [exists (nearest a b x); split; [exact Q1|reflexivity]|exact Q2]. }
  assert (DP : forall a b, 0 <= np_norm (psub (nearest a b x) x)) by (intros; rewrite np_norm_norm; apply sqrt_pos).
  assert (P1 : 0 <= d1) by apply DP. assert (P2 : 0 <= d2) by apply DP. assert (P3 : 0 <= d3) by apply DP.
  assert (WP : forall d, 0 <= d -> 0 < 1 / (d + 1 / 1000000)) by (intros d Hd; apply Rdiv_lt_0_compat; lra).
  pose proof (WP d1 P1). pose proof (WP d2 P2). pose proof (WP d3 P3).
  set (T := 1 / (d1 + 1 / 1000000) + (1 / (d2 + 1 / 1000000) + (1 / (d3 + 1 / 1000000) + 0))). assert (TP : 0 < T) by (unfold T; lra).
  assert (OB : good OBSTACLE) by (right; reflexivity).
  match goal with |- context [rotate m ?z OBSTACLE fo] => set (n0 := z) end.
  destruct (rotate_good m n0 OBSTACLE fo OB Ho) as (al & Q & V). rewrite Q.
  exists p, u, w, q, d1, d2, d3, (/ T), al.
  split; [unfold p, u; rewrite J0; apply table_edge; exact PI1|]. split; [apply table_edge; exact Hf|].
  split; [unfold w, q; rewrite J3' at 1; apply table_edge; exact J3|].
  split. { destruct F as (a & b & c & F1 & F2 & F3 & F4 & F5 & F6). exists a, b, c. repeat (split; [assumption|]). intros p' t Hp. apply F6. apply (Permutation_in _ P Hp). }
  split; [apply DS|]. split; [apply DS|]. split; [apply DS|].
  assert (WI : forall d, 0 <= d -> / T / (d + / 1000000) = 1 / (d + 1 / 1000000) / T).
  { intros d Hd. replace (1 / 1000000) with (/ 1000000) by lra. field. split; [intros Z; lra|]. intros Z. pose proof (Rinv_0_lt_compat 1000000 ltac:(lra)). lra. }
  split; [apply Rinv_0_lt_compat; exact TP|]. rewrite !WI by assumption. split.
  - replace 1 with (T / T) at 7 by (field; lra). unfold T at 4. field. repeat split; try lra.
  - split.
    + f_equal. f_equal.
      change n0 with (vadd (smul (1 / (d1 + 1 / 1000000) / T) (edge_normal p u)) (vadd (smul (1 / (d2 + 1 / 1000000) / T) (edge_normal u w)) (vadd (smul (1 / (d3 + 1 / 1000000) / T) (edge_normal w q)) (0, 0)))).
      cbn [wsum]. unfold right_of, edge_normal, vsub, vadd, smul. cbn [fst snd]. apply pair_eq; ring.
    + intros y z. apply V; rewrite <- to_frame_shown by exact Ho; apply to_frame_ok; exact Ho.
Qed.
Print Assumptions C79_weighted_normal_partial.
(** it is not a unit vector: the square with corners (4,0), (0,4), (-4,0), (0,-4) seen from (10,10) *)
Theorem C79_weighted_normal_refuted : exists (v : list Pt) xr x, x <> xr /\ ccw_around xr v /\
  forall nearest argsort, (forall l, sorts l (argsort l)) ->
  (forall a b y, on_seg a b (nearest a b y) /\ forall p, on_seg a b p -> dist (nearest a b y) y <= dist p y) ->
  exists n, sp_normal nearest (sp_new argsort None v xr) x GLOBAL GLOBAL WeightedEdges = Ret n /\ 1 < norm n.
Proof.
  set (v := [(4, 0); (0, 4); (-4, 0); (0, -4)] : list Pt). exists v, (0, 0), (10, 10). destruct C55_example as [CC NX].
  split; [exact NX|]. split; [exact CC|]. intros nearest argsort A NN. set (s := sp_new argsort None v (0, 0)).
  assert (NE : v <> []) by discriminate. assert (H : history argsort None v s) by constructor.
  assert (NV : forall p, In p v -> p <> s_xr s) by (intros p Hp E; cbn in Hp, E; destruct Hp as [Hp|[Hp|[Hp|[Hp|[]]]]]; rewrite E in Hp; injection Hp; intros; lra).
  assert (GG : good GLOBAL) by (left; reflexivity).
  destruct (C79_weighted_normal_partial nearest argsort None v s (10, 10) GLOBAL GLOBAL A NE H NN NV NX GG GG)
    as (p & u & w & q & d1 & d2 & d3 & c & al & E1 & E2 & E3 & F & D1 & D2 & D3 & C & SUM & R & _).
  pose proof (C54_table_follows_boundary argsort None v v s A NE H (or_introl eq_refl) CC) as RT.
  apply (cyc_edges_rotation _ _ _ RT) in E1, E2, E3.
  cbn [shown] in R. eexists. split; [exact R|]. clear R RT A NN H NV.
  assert (UW : u = (4, 0) /\ w = (0, 4)).
  { assert (AR : 0 < area2 (0, 0) u w).
    { cbn in E2. destruct E2 as [E|[E|[E|[E|[]]]]]; injection E as <- <-; unfold area2, cross, vsub; cbn [fst snd]; lra. }
    apply faces_cone in F; [|exact AR]. cbn in E2. destruct E2 as [E|[E|[E|[E|[]]]]]; injection E as <- <-; unfold area2, cross, vsub in F; cbn [fst snd s_xr] in F; try (exfalso; unfold s, sp_new in F; cbn [s_xr fst snd] in F; lra). auto. }
  destruct UW as [-> ->].
  assert (p = (0, -4)) as -> by (cbn in E1; destruct E1 as [E|[E|[E|[E|[]]]]]; apply (f_equal (fun e => (fst e, fst (snd e), snd (snd e)))) in E; cbn in E; injection E; intros; subst; try (exfalso; lra); reflexivity).
  assert (q = (-4, 0)) as -> by (cbn in E3; destruct E3 as [E|[E|[E|[E|[]]]]]; apply (f_equal (fun e => (fst (fst e), snd (fst e), snd e))) in E; cbn in E; injection E; intros; subst; try (exfalso; lra); reflexivity).
  assert (FAR : forall a b d, fst a + snd a <= 4 -> fst b + snd b <= 4 -> dist_seg a b (10, 10) d -> d2 <= d).
  { intros a b d Ha Hb [(y & (t & Ht & ->) & <-) _]. destruct D2 as [_ D2].
    assert (M : on_seg (4, 0) (0, 4) (2, 2)) by (exists (1 / 2); split; [lra|]; unfold along, vadd, smul, vsub; cbn [fst snd]; apply pair_eq; lra).
    eapply Rle_trans; [apply (D2 _ M)|]. unfold dist, norm. apply sqrt_le_1_alt. destruct a as [a1 a2], b as [b1 b2]. unfold norm2, dot, along, vadd, smul, vsub. cbn [fst snd] in *.
    set (X := a1 + t * (b1 - a1)). set (Y := a2 + t * (b2 - a2)). assert (XE : X + Y = (1 - t) * (a1 + a2) + t * (b1 + b2)) by (unfold X, Y; ring). assert (XL : X + Y <= 4) by nra. clearbody X Y. clear - XL. assert (Q : 16 * 16 <= (20 - (X + Y)) * (20 - (X + Y))) by (apply Rmult_le_compat; lra). pose proof (Rle_0_sqr (X - Y)) as Q'. unfold Rsqr in Q'. lra. }
  assert (L1 : d2 <= d1) by (apply (FAR _ _ _) in D1; [exact D1|cbn; lra|cbn; lra]). assert (L3 : d2 <= d3) by (apply (FAR _ _ _) in D3; [exact D3|cbn; lra|cbn; lra]).
  assert (P2 : 0 <= d2). { destruct D2 as [(y & _ & <-) _]. apply sqrt_pos. }
  rewrite rotv_norm. cbn [wsum]. set (e := / 1000000) in *. assert (EP : 0 < e) by (unfold e; apply Rinv_0_lt_compat; lra).
  assert (W : forall d, d2 <= d -> 0 < c / (d + e) <= c / (d2 + e)).
  { intros d Hd. split; [apply Rdiv_lt_0_compat; lra|]. unfold Rdiv. apply Rmult_le_compat_l; [lra|]. apply Rinv_le_contravar; lra. }
  pose proof (W d1 L1) as W1. pose proof (W d3 L3) as W3.
  set (w1 := c / (d1 + e)) in *. set (w2 := c / (d2 + e)) in *. set (w3 := c / (d3 + e)) in *.
  unfold norm. rewrite <- sqrt_1 at 1. apply sqrt_lt_1_alt. split; [lra|]. unfold norm2, dot, right_of, vadd, smul, vsub. cbn [fst snd].
  match goal with |- _ < ?g * ?g + ?h * ?h => assert (XY : g + h = 8 * w2) by ring; set (X := g) in *; set (Y := h) in * end. clearbody X Y. assert (W2 : 1 / 3 <= w2) by lra.
  assert (Q : (8 / 3) * (8 / 3) <= (X + Y) * (X + Y)) by (apply Rmult_le_compat; lra). pose proof (Rle_0_sqr (X - Y)) as Q'. unfold Rsqr in Q'. lra.
Qed.
Print Assumptions C79_weighted_normal_refuted.

(** *** boundary mapping *)
Definition on_ray_ring (x0 x : Pt) (ring : region) (k : R) : Prop := 0 < k /\ ring (along x0 x k).
Theorem C57_boundary_mapping_general : forall isect (ring : region) m s x fi fo k, s_mm s = m -> good fi -> good fo -> x <> s_xr s ->
  (forall a b, describes (isect a b) (fun p => on_seg a b p /\ ring p)) -> star_curve (s_xr s) ring -> 0 <= s_diam s ->
  on_ray_ring (s_xr s) x ring k ->
  (dist (along (s_xr s) x k) (s_xr s) <= 11 / 10 * s_diam s -> sp_boundary_mapping isect s (shown m fi x) fi fo = Ret (Some (shown m fo (along (s_xr s) x k)))) /\
  (11 / 10 * s_diam s < dist (along (s_xr s) x k) (s_xr s) -> sp_boundary_mapping isect s (shown m fi x) fi fo = Ret None).
Proof.
  intros isect ring m s x fi fo k M Hi Ho NX D [NR SC] DN [KP RK]. set (x0 := s_xr s) in *.
  assert (DP : 0 < dist x x0).
  { unfold dist. apply norm_pos. intros Z. apply NX. unfold vsub in Z. injection Z as Z1 Z2. destruct x, x0; cbn [fst snd] in *. apply pair_eq; lra. }
  assert (OO : forall y, transform m y OBSTACLE OBSTACLE = Ret y) by (intros y; destruct m; reflexivity).
  unfold sp_boundary_mapping. rewrite M, from_shown by exact Hi. cbn [bind]. fold x0.
  assert (RD : reference_direction m x0 x OBSTACLE OBSTACLE = Ret (smul (/ dist x x0) (vsub x x0))).
  { unfold reference_direction. rewrite !OO. cbn [bind]. cbv zeta. change (psub x x0) with (vsub x x0). rewrite (np_norm_norm (vsub x x0)). fold (dist x x0).
    destruct (Reqb_spec (dist x x0) 0); [lra|reflexivity]. }
  rewrite RD. cbn [bind]. unfold p_line_intersection. rewrite !OO. cbn [bind].
  set (L := 11 / 10 * s_diam s) in *. assert (LP : 0 <= L) by (unfold L; lra).
  change (padd x0 (scale L (smul (/ dist x x0) (vsub x x0)))) with (vadd x0 (smul L (smul (/ dist x x0) (vsub x x0)))).
  set (e := vadd x0 (smul L (smul (/ dist x x0) (vsub x x0)))).
  rewrite (dist_along x0 x k) by lra. destruct (SC x NX) as (k' & Hk' & Rk' & U). assert (EK : k = k') by (apply U; [lra|exact RK]). subst k'.
  assert (LK : k * dist x x0 <= L <-> k <= L / dist x x0).
  { split; intros Q; [apply Rmult_le_reg_r with (dist x x0); [exact DP|]; unfold Rdiv; rewrite Rmult_assoc, Rinv_l by lra; lra|].
    apply Rmult_le_compat_r with (r := dist x x0) in Q; [|lra]. unfold Rdiv in Q. rewrite Rmult_assoc, Rinv_l in Q by lra. lra. }
  split; intros Q.
  - assert (G : isect x0 e = GPoint (along x0 x k)).
    { eapply describes_one; [apply D|]. intros p. cbn beta. unfold e. rewrite probe_points by assumption. split.
      - intros [(j & Hj & ->) Rj]. f_equal. apply U; [lra|exact Rj].
      - intros ->. split; [exists k; split; [split; [lra|apply LK; exact Q]|reflexivity]|exact RK]. }
    rewrite G. cbn [geom_points bind]. cbn [map_res]. rewrite OO. cbn [bind].
    rewrite (to_frame_ok m fo _ Ho), to_frame_shown by exact Ho. reflexivity.
  - assert (G : isect x0 e = GEmpty).
    { eapply describes_none; [apply D|]. intros p [Hp Rp]. unfold e in Hp. apply probe_points in Hp; [|assumption|assumption]. destruct Hp as (j & Hj & ->).
      assert (j = k) by (apply U; [lra|exact Rp]). subst j. destruct Hj as [_ Hj]. apply LK in Hj. lra. }
    rewrite G. reflexivity.
Qed.
Print Assumptions C57_boundary_mapping_general.

(** a starshaped polygon as constructed finds its boundary in every direction, and distance_function is exact *)
Lemma history_diam argsort m v s : history argsort m v s -> s_diam s = width v + height v /\ s_mm s = m.
Proof.
  intros H. induction H as [xr|s z fi s' H [I1 I2] G E]; [split; reflexivity|]. unfold sp_set_xr in E. rewrite I2, from_shown in E by exact G.
  cbn [bind] in E. cbv zeta in E. injection E as <-. cbn [s_diam s_mm]. auto.
Qed.
Theorem C57_constructed : forall isect (ring : region) argsort m (v : list Pt) s x fi fo, history argsort m v s -> good fi -> good fo -> x <> s_xr s ->
  (forall a b, describes (isect a b) (fun p => on_seg a b p /\ ring p)) -> star_curve (s_xr s) ring ->
  within_box v (s_xr s) -> (forall y, ring y -> within_box v y) ->
  exists k, on_ray_ring (s_xr s) x ring k /\ sp_boundary_mapping isect s (shown m fi x) fi fo = Ret (Some (shown m fo (along (s_xr s) x k))).
Proof.
  intros isect ring argsort m v s x fi fo H Hi Ho NX D SC WX WR. destruct (history_diam _ _ _ _ H) as [DI M].
  destruct (proj2 SC x NX) as (k & Kp & Rk & _). exists k. split; [split; assumption|].
  destruct (box_reach v (along (s_xr s) x k) (s_xr s) (WR _ Rk) WX) as (B & _ & W & Hh).
  apply (C57_boundary_mapping_general isect ring m s x fi fo k M Hi Ho NX D SC); [rewrite DI; lra|split; assumption|rewrite DI; lra].
Qed.
Print Assumptions C57_constructed.
(** after dilation the probe may be too short; it is long enough when the bounding box is elongated *)
Theorem C57_dilated_partial : forall isect (ring : region) argsort m (v' : list Pt) s x fi fo, s_mm s = m -> good fi -> good fo -> x <> s_xr s ->
  (forall a b, describes (isect a b) (fun p => on_seg a b p /\ ring p)) -> star_curve (s_xr s) ring ->
  within_box v' (s_xr s) -> (forall y, ring y -> within_box v' y) ->
  100 * (width v' ^ 2 + height v' ^ 2) <= 121 * Rmax (width v') (height v') ^ 2 ->
  exists k, on_ray_ring (s_xr s) x ring k /\ sp_boundary_mapping isect (sp_dilated argsort v' s) (shown m fi x) fi fo = Ret (Some (shown m fo (along (s_xr s) x k))).
Proof.
  intros isect ring argsort m v' s x fi fo M Hi Ho NX D SC WX WR EL.
  destruct (proj2 SC x NX) as (k & Kp & Rk & _). exists k. split; [split; assumption|].
  destruct (box_reach v' (along (s_xr s) x k) (s_xr s) (WR _ Rk) WX) as (_ & B & W & Hh).
  assert (MX : 0 <= Rmax (width v') (height v')) by (eapply Rle_trans; [exact W|apply Rmax_l]).
  apply (C57_boundary_mapping_general isect ring m (sp_dilated argsort v' s) x fi fo k M Hi Ho NX D SC); [exact MX|split; assumption|].
  change (s_xr (sp_dilated argsort v' s)) with (s_xr s). change (s_diam (sp_dilated argsort v' s)) with (Rmax (width v') (height v')).
  set (dd := dist _ _) in *. assert (0 <= dd) by apply sqrt_pos. apply Rsqr_incr_0_var; [|lra]. unfold Rsqr. nra.
Qed.
Print Assumptions C57_dilated_partial.
(** the unit square, reference point (0.01,0.01), any padding up to 1/8: nothing is found in the direction of (1,1) *)
Theorem C57_dilated_refuted : forall isect (ring : region) argsort m (v' : list Pt) s fi fo, s_mm s = m -> good fi -> good fo -> s_xr s = (1 / 100, 1 / 100) ->
  (forall a b, describes (isect a b) (fun p => on_seg a b p /\ ring p)) -> 0 <= width v' <= 5 / 4 -> height v' <= 5 / 4 ->
  (forall p, ring p -> ~ (0 < fst p < 1 /\ 0 < snd p < 1)) ->
  sp_boundary_mapping isect (sp_dilated argsort v' s) (shown m fi (1, 1)) fi fo = Ret None.
Proof.
  intros isect ring argsort m v' s fi fo M Hi Ho X0 D W Hh NR.
  assert (OO : forall y, transform m y OBSTACLE OBSTACLE = Ret y) by (intros y; destruct m; reflexivity).
  unfold sp_boundary_mapping. change (s_mm (sp_dilated argsort v' s)) with (s_mm s). change (s_xr (sp_dilated argsort v' s)) with (s_xr s). change (s_diam (sp_dilated argsort v' s)) with (Rmax (width v') (height v')).
  rewrite M, X0, from_shown by exact Hi. cbn [bind]. set (x0 := (1 / 100, 1 / 100) : Pt). set (x := (1, 1) : Pt).
  assert (NX : x <> x0) by (intros E; injection E as E _; lra).
  assert (DS : dist x x0 = 99 / 100 * sqrt 2).
  { unfold dist, norm, norm2, dot, vsub, x, x0. cbn [fst snd]. replace ((1 - 1 / 100) * (1 - 1 / 100) + (1 - 1 / 100) * (1 - 1 / 100)) with ((99 / 100) ^ 2 * 2) by field.
    rewrite sqrt_mult, sqrt_pow2 by lra. reflexivity. }
  assert (S2 : 141 / 100 < sqrt 2). { rewrite <- (sqrt_pow2 (141 / 100)) by lra. apply sqrt_lt_1_alt. lra. }
  assert (RD : reference_direction m x0 x OBSTACLE OBSTACLE = Ret (smul (/ dist x x0) (vsub x x0))).
  { unfold reference_direction. rewrite !OO. cbn [bind]. cbv zeta. change (psub x x0) with (vsub x x0). rewrite (np_norm_norm (vsub x x0)). fold (dist x x0).
    destruct (Reqb_spec (dist x x0) 0); [lra|reflexivity]. }
  rewrite RD. cbn [bind]. unfold p_line_intersection. rewrite !OO. cbn [bind]. set (L := 11 / 10 * Rmax (width v') (height v')).
  assert (LB : 0 <= L <= 11 / 8).
  { unfold L. assert (0 <= Rmax (width v') (height v')) by (eapply Rle_trans; [apply W|apply Rmax_l]). assert (Rmax (width v') (height v') <= 5 / 4) by (apply Rmax_lub; lra). lra. }
  change (padd x0 (scale L (smul (/ dist x x0) (vsub x x0)))) with (vadd x0 (smul L (smul (/ dist x x0) (vsub x x0)))).
  assert (G : isect x0 (vadd x0 (smul L (smul (/ dist x x0) (vsub x x0)))) = GEmpty).
  { eapply describes_none; [apply D|]. intros p [Hp Rp]. apply probe_points in Hp; [|exact NX|lra]. destruct Hp as (j & Hj & ->). apply (NR _ Rp).
    assert (j < 1). { assert (L / dist x x0 < 1); [|lra]. apply Rmult_lt_reg_r with (dist x x0); [lra|]. unfold Rdiv. rewrite Rmult_assoc, Rinv_l by lra. lra. }
    unfold along, vadd, smul, vsub, x, x0. cbn [fst snd]. lra. }
  rewrite G. reflexivity.
Qed.
Print Assumptions C57_dilated_refuted.
Example C57_example : let v := [(0, 0); (1, 0); (1, 1); (0, 1)] : list Pt in
  (forall p, on_ring v p -> ~ (0 < fst p < 1 /\ 0 < snd p < 1)) /\ width v = 1 /\ height v = 1.
Proof.
  cbv zeta. split; [|split].
  - intros p (a & b & E & (t & Ht & ->)) [X Y]. cbn in E. destruct E as [E|[E|[E|[E|[]]]]]; injection E as <- <-; unfold along, vadd, smul, vsub in *; cbn [fst snd] in *; lra.
  - unfold width. cbn. unfold Rmax, Rmin. repeat destruct Rle_dec; lra.
  - unfold height. cbn. unfold Rmax, Rmin. repeat destruct Rle_dec; lra.
Qed.

(** C56 *)
Theorem C56_distance_function : forall isect (ring : region) argsort m (v : list Pt) s x fi, history argsort m v s -> good fi -> x <> s_xr s ->
  (forall a b, describes (isect a b) (fun p => on_seg a b p /\ ring p)) -> star_curve (s_xr s) ring ->
  within_box v (s_xr s) -> (forall y, ring y -> within_box v y) ->
  exists f k, sp_distance_function isect s (shown m fi x) fi = Ret f /\ on_ray_ring (s_xr s) x ring k /\
    (f < 1 <-> dist x (s_xr s) < dist (along (s_xr s) x k) (s_xr s)) /\ (f = 1 <-> ring x) /\ (1 < f <-> dist (along (s_xr s) x k) (s_xr s) < dist x (s_xr s)) /\
    forall c, 1 < c -> exists f', sp_distance_function isect s (shown m fi (along (s_xr s) x c)) fi = Ret f' /\ f < f'.
Proof.
  intros isect ring argsort m v s x fi H Hi NX D SC WX WR. destruct (history_diam _ _ _ _ H) as [_ M]. assert (OB : good OBSTACLE) by (right; reflexivity).
  assert (DPOS : forall y : Pt, y <> s_xr s -> 0 < dist y (s_xr s)).
  { intros y N. unfold dist. apply norm_pos. intros Z. apply N. unfold vsub in Z. injection Z as Z1 Z2. destruct y, (s_xr s); cbn [fst snd] in *. apply pair_eq; lra. }
  assert (VAL : forall y, y <> s_xr s -> exists k, on_ray_ring (s_xr s) y ring k /\
     let dc := dist y (s_xr s) in sp_distance_function isect s (shown m fi y) fi = Ret (if Rltb dc (k * dc) then (dc / (k * dc)) ^ 2 else (dc - k * dc + 1) ^ 2)).
  { intros y NY. destruct (C57_constructed isect ring argsort m v s y OBSTACLE OBSTACLE H OB OB NY D SC WX WR) as (k & K & E).
    exists k. split; [exact K|]. cbv zeta. unfold sp_distance_function. rewrite M, from_shown by exact Hi. cbn [bind]. cbv zeta.
    assert (SO : forall z, shown m OBSTACLE z = z) by (intros; unfold shown; destruct m; reflexivity). rewrite !SO in E. rewrite E. cbn [bind].
    change (psub y (s_xr s)) with (vsub y (s_xr s)). change (psub (along (s_xr s) y k) (s_xr s)) with (vsub (along (s_xr s) y k) (s_xr s)).
    rewrite (np_norm_norm (vsub y (s_xr s))), (np_norm_norm (vsub (along (s_xr s) y k) (s_xr s))). fold (dist y (s_xr s)) (dist (along (s_xr s) y k) (s_xr s)).
    rewrite (dist_along (s_xr s) y k) by (destruct K; lra). destruct (Rltb _ _); reflexivity. }
  destruct (VAL x NX) as (k & [Kp Rk] & E). cbv zeta in E. pose proof (DPOS x NX) as DP. set (dc := dist x (s_xr s)) in *.
  assert (DK : dist (along (s_xr s) x k) (s_xr s) = k * dc) by (apply dist_along; lra).
  assert (RX : ring x <-> k = 1).
  { assert (X1 : along (s_xr s) x 1 = x) by (destruct x, (s_xr s); unfold along, vadd, smul, vsub; cbn [fst snd]; apply pair_eq; ring).
    destruct (proj2 SC x NX) as (k1 & _ & _ & U). split; intros Q.
    - rewrite (U k) by (auto; lra). symmetry. apply U; [lra|]. rewrite X1. exact Q.
    - subst k. rewrite <- X1. exact Rk. }
  eexists. exists k. split; [exact E|]. split; [split; assumption|]. rewrite DK.
  assert (IN : 1 < k -> 0 < dc / (k * dc) < 1).
  { intros K1. assert (0 < k * dc) by nra. split; [apply Rdiv_lt_0_compat; assumption|]. apply Rmult_lt_reg_r with (k * dc); [assumption|]. unfold Rdiv. rewrite Rmult_assoc, Rinv_l by lra. nra. }
  assert (IV : dc / (k * dc) = / k) by (field; lra).
  split; [|split; [|split]].
  - destruct (Rltb_spec dc (k * dc)) as [L|L]; [split; intros _; [exact L|]|split; intros Q; [|lra]].
    + assert (1 < k) by (apply Rnot_le_lt; intros Z; nra). specialize (IN H0). nra.
    + exfalso. assert (0 <= dc - k * dc) by lra. nra.
  - rewrite RX. destruct (Rltb_spec dc (k * dc)) as [L|L].
    + assert (1 < k) by (apply Rnot_le_lt; intros Z; nra). specialize (IN H0). split; intros Q; [exfalso; nra|lra].
    + split; intros Q; [|subst k; ring_simplify (dc - 1 * dc + 1); ring]. assert (0 <= dc - k * dc) by lra. assert (dc - k * dc = 0) by nra. nra.
  - destruct (Rltb_spec dc (k * dc)) as [L|L].
    + assert (1 < k) by (apply Rnot_le_lt; intros Z; nra). specialize (IN H0). split; intros Q; [exfalso; nra|lra].
    + split; intros Q; [apply Rnot_le_lt; intros Z; assert (dc - k * dc = 0) by lra; rewrite H0 in Q; lra|nra].
  - intros c C1. set (y := along (s_xr s) x c).
    assert (YD : dist y (s_xr s) = c * dc) by (apply dist_along; lra).
    assert (NY : y <> s_xr s). { intros Z. rewrite Z in YD. unfold dist at 1, vsub, norm, norm2, dot in YD. cbn [fst snd] in YD. match type of YD with sqrt ?e = _ => replace e with 0 in YD by ring end. rewrite sqrt_0 in YD. nra. }
    destruct (VAL y NY) as (k' & [Kp' Rk'] & E'). cbv zeta in E'. rewrite YD in E'.
    assert (KK : k' * c = k).
    { destruct (proj2 SC x NX) as (k1 & _ & _ & U). rewrite (U k) by (auto; lra). apply U; [nra|]. 
      replace (along (s_xr s) x (k' * c)) with (along (s_xr s) y k'); [exact Rk'|]. unfold y. destruct x, (s_xr s); unfold along, vadd, smul, vsub; cbn [fst snd]; apply pair_eq; ring. }
    replace (k' * (c * dc)) with (k * dc) in E' by (rewrite <- KK; ring). eexists. split; [exact E'|].
    assert (KD : 0 < k * dc) by nra. assert (CD : dc < c * dc) by nra.
    destruct (Rltb_spec dc (k * dc)) as [L|L]; destruct (Rltb_spec (c * dc) (k * dc)) as [L'|L']; try lra.
    + assert (dc / (k * dc) < c * dc / (k * dc)) by (apply Rmult_lt_compat_r; [apply Rinv_0_lt_compat; exact KD|exact CD]).
      assert (0 < dc / (k * dc)) by (apply Rdiv_lt_0_compat; assumption). nra.
    + assert (1 < k) by (apply Rnot_le_lt; intros Z; nra). specialize (IN H0). nra.
    + nra.
Qed.
Print Assumptions C56_distance_function.
Example C56_example : let ring : region := fun p => Rabs (fst p) + Rabs (snd p) = 1 in let v := [(1, 0); (0, 1); (-1, 0); (0, -1)] : list Pt in
  star_curve (0, 0) ring /\ within_box v (0, 0) /\ forall y, ring y -> within_box v y.
Proof.
  cbv zeta. split; [|split].
  - split; [cbn [fst snd]; rewrite Rabs_R0; lra|]. intros [a b] N.
    assert (AL : forall k, 0 <= k -> along (0, 0) (a, b) k = (k * a, k * b)) by (intros; unfold along, vadd, smul, vsub; cbn [fst snd]; apply pair_eq; ring).
    assert (P : 0 < Rabs a + Rabs b).
    { pose proof (Rabs_pos a). pose proof (Rabs_pos b). destruct (Req_dec a 0) as [->|A]; [destruct (Req_dec b 0) as [->|B]; [congruence|apply Rabs_pos_lt in B; lra]|apply Rabs_pos_lt in A; lra]. }
    exists (/ (Rabs a + Rabs b)). assert (IP : 0 < / (Rabs a + Rabs b)) by (apply Rinv_0_lt_compat; exact P). split; [exact IP|].
    assert (SC : forall k, 0 <= k -> Rabs (k * a) + Rabs (k * b) = k * (Rabs a + Rabs b)) by (intros k Hk; rewrite !Rabs_mult, (Rabs_right k) by lra; ring).
    split; [rewrite AL by lra; cbn [fst snd]; rewrite SC by lra; field; lra|].
    intros k Hk E. rewrite AL in E by exact Hk. cbn [fst snd] in E. rewrite SC in E by exact Hk. apply Rmult_eq_reg_r with (Rabs a + Rabs b); [rewrite E; field; lra|lra].
  - repeat split; [exists (-1, 0)|exists (1, 0)|exists (0, -1)|exists (0, 1)]; cbn [fst snd In]; (split; [auto 6|lra]).
  - intros [a b] H. cbn [fst snd] in H. pose proof (Rabs_pos a). pose proof (Rabs_pos b). pose proof (Rle_abs a). pose proof (Rle_abs b). pose proof (Rle_abs (- a)). pose proof (Rle_abs (- b)). rewrite Rabs_Ropp in *.
    repeat split; [exists (-1, 0)|exists (1, 0)|exists (0, -1)|exists (0, 1)]; cbn [fst snd In]; (split; [auto 6|lra]).
Qed.

(** C80: line_intersection returns points of the segment on the boundary; all of them when there are finitely many *)
Lemma chain_vertex l p : proper_chain l -> In p l -> on_chain l p.
Proof.
  intros [L _] Hp. destruct l as [|a l]; [destruct Hp|]. revert a L Hp. induction l as [|b l IH]; intros a L Hp; [cbn in L; lia|].
  destruct Hp as [->|Hp].
  - exists p, b. split; [left; reflexivity|]. exists 0. split; [lra|]. destruct p, b; unfold along, vadd, smul, vsub; cbn [fst snd]; apply pair_eq; ring.
  - destruct l as [|c l].
    + destruct Hp as [->|[]]. exists a, p. split; [left; reflexivity|]. exists 1. split; [lra|]. destruct p, a; unfold along, vadd, smul, vsub; cbn [fst snd]; apply pair_eq; ring.
    + destruct (IH b ltac:(cbn; lia) Hp) as (u & w & I & O). exists u, w. split; [right; exact I|exact O].
Qed.
Theorem C80_line_intersection_partial : forall isect (ring : region) m l0 l1 fi fo, good fi -> good fo ->
  (forall a b, describes (isect a b) (fun p => on_seg a b p /\ ring p)) ->
  (exists pts ll, isect l0 l1 = GOther pts ll /\ p_line_intersection isect m (shown m fi l0) (shown m fi l1) fi fo = Exn UnboundErr) \/
  (exists l, p_line_intersection isect m (shown m fi l0) (shown m fi l1) fi fo = Ret (map (shown m fo) l) /\
     (forall p, In p l -> on_seg l0 l1 p /\ ring p) /\ (l = [] <-> forall p, ~ (on_seg l0 l1 p /\ ring p)) /\
     (forall ps, (forall p, on_seg l0 l1 p /\ ring p -> In p ps) -> forall p, on_seg l0 l1 p /\ ring p -> In p l)).
Proof.
  intros isect ring m l0 l1 fi fo Hi Ho D. unfold p_line_intersection. rewrite !from_shown by exact Hi. cbn [bind]. specialize (D l0 l1).
  set (A := fun p : Pt => on_seg l0 l1 p /\ ring p) in *.
  assert (MR : forall l, map_res (fun p => transform m p OBSTACLE fo) l = Ret (map (shown m fo) l)).
  { intros l. rewrite map_res_frames by exact Ho. f_equal. apply map_ext. intros p. apply to_frame_shown. exact Ho. }
  assert (INF : forall a b ps, a <> b -> (forall p, on_seg a b p -> In p ps) -> False).
  { intros a b ps N H. set (f := fun n : nat => along a b (/ (INR n + 1))).
    assert (INJ : forall n n', f n = f n' -> n = n').
    { intros n n' E. unfold f, along, vadd, smul, vsub in E. injection E as E1 E2. assert (K : / (INR n + 1) = / (INR n' + 1)).
      { destruct a as [a1 a2], b as [b1 b2]. cbn [fst snd] in *. destruct (Req_dec a1 b1) as [->|Q].
        - apply Rmult_eq_reg_r with (b2 - a2); [lra|]. intros Z. apply N. apply pair_eq; lra.
        - apply Rmult_eq_reg_r with (b1 - a1); [lra|]. lra. }
      apply (f_equal Rinv) in K. pose proof (pos_INR n). pose proof (pos_INR n'). rewrite !Rinv_inv in K. apply INR_eq. lra. }
    set (k := map f (seq 0 (S (length ps)))). assert (NDk : NoDup k) by (apply FinFun.Injective_map_NoDup; [exact INJ|apply seq_NoDup]).
    assert (INC : incl k ps).
    { intros p Hp. apply in_map_iff in Hp as (n & <- & _). apply H. exists (/ (INR n + 1)). split; [|reflexivity].
      pose proof (pos_INR n). split; [left; apply Rinv_0_lt_compat; lra|]. rewrite <- Rinv_1 at 2. apply Rinv_le_contravar; lra. }
    pose proof (NoDup_incl_length NDk INC) as LEN. unfold k in LEN. rewrite map_length, seq_length in LEN. lia. }
  assert (CH : forall l ps, proper_chain l -> (forall p, on_chain l p -> In p ps) -> False).
  { intros l ps [L Dl] H. destruct l as [|a [|b l]]; cbn in L; try lia. apply (INF a b ps); [apply Dl; left; reflexivity|].
    intros p Hp. apply H. exists a, b. split; [left; reflexivity|exact Hp]. }
  destruct (isect l0 l1) as [|q|l|l|ll|pts ll]; cbn [describes] in D; cbn [geom_points bind]; try rewrite MR.
  - right. exists []. split; [reflexivity|]. split; [intros p []|]. split; [split; auto|]. intros ps _ p Hp. exact (D p Hp).
  - right. exists [q]. split; [reflexivity|]. split; [intros p [<-|[]]; apply D; reflexivity|]. split; [split; [discriminate|intros Z; exfalso; apply (Z q), D; reflexivity]|].
    intros ps _ p Hp. apply D in Hp. left. auto.
  - right. destruct D as (L & _ & D). exists l. split; [reflexivity|]. split; [intros p Hp; apply D; exact Hp|]. split; [|intros ps _ p Hp; apply D; exact Hp].
    split; [intros ->; cbn in L; lia|]. intros Z. destruct l as [|p l]; [reflexivity|]. exfalso. apply (Z p), D. left. reflexivity.
  - right. destruct D as (P & D). exists l. split; [reflexivity|]. split; [intros p Hp; apply D, chain_vertex; assumption|]. split.
    + destruct P as [L P]. split; [intros ->; cbn in L; lia|]. intros Z. destruct l as [|p l]; [reflexivity|]. exfalso. apply (Z p), D, chain_vertex; [split; assumption|left; reflexivity].
    + intros ps Hps p Hp. exfalso. apply (CH l ps P). intros y Hy. apply Hps, D, Hy.
  - right. destruct D as (NE & F & D). exists (concat ll). rewrite Forall_forall in F. split; [reflexivity|]. split; [|split].
    + intros p Hp. apply in_concat in Hp as (l & Hl & Hp). apply D. exists l. split; [exact Hl|]. apply chain_vertex; [apply F; exact Hl|exact Hp].
    + destruct ll as [|l ll]; [congruence|]. destruct (F l (or_introl eq_refl)) as [L P]. split.
      * intros E. cbn [concat] in E. apply app_eq_nil in E as [E _]. subst l. cbn in L; lia.
      * intros Z. exfalso. destruct l as [|p l]; [cbn in L; lia|]. apply (Z p), D. exists (p :: l). split; [left; reflexivity|]. apply chain_vertex; [split; assumption|left; reflexivity].
    + intros ps Hps p Hp. exfalso. destruct ll as [|l ll]; [congruence|]. apply (CH l ps (F l (or_introl eq_refl))). intros y Hy. apply Hps, D. exists l. split; [left; reflexivity|exact Hy].
  - left. eauto.
Qed.
Print Assumptions C80_line_intersection_partial.
(** an L-shaped polygon and the horizontal line through its inner corner: the intersection is a point and a segment,
    and the call raises UnboundLocalError *)
Theorem C80_line_intersection_refuted : exists (v : list Pt) l0 l1, forall isect m fi fo, good fi -> good fo ->
  (forall a b, describes (isect a b) (fun p => on_seg a b p /\ on_ring v p)) ->
  p_line_intersection isect m (shown m fi l0) (shown m fi l1) fi fo = Exn UnboundErr.
Proof.
  set (v := [(0, 0); (2, 0); (2, 1); (1, 1); (1, 2); (0, 2)] : list Pt). exists v, (-1, 1), (3, 1). intros isect m fi fo Hi Ho D.
  set (A := fun p : Pt => on_seg (-1, 1) (3, 1) p /\ on_ring v p).
  assert (CHAR : forall p, A p <-> p = (0, 1) \/ (snd p = 1 /\ 1 <= fst p <= 2)).
  { intros [px py]. unfold A. split.
    - intros [(t & Ht & E) (a & b & Hab & (t' & Ht' & E'))]. unfold along, vadd, smul, vsub in E. cbn [fst snd] in E. injection E as E1 E2. assert (PY : py = 1) by lra. clear E1 E2.
      cbn in Hab. destruct Hab as [H|[H|[H|[H|[H|[H|[]]]]]]]; injection H as <- <-; unfold along, vadd, smul, vsub in E'; cbn [fst snd] in *; injection E' as Q1 Q2;
        [exfalso; lra| | | |exfalso; lra|left; apply pair_eq; lra]; right; split; lra.
    - assert (ONL : forall y, 0 <= y <= 2 -> on_seg (-1, 1) (3, 1) (y, 1)).
      { intros y Hy. exists ((y + 1) / 4). split; [lra|]. unfold along, vadd, smul, vsub. cbn [fst snd]. apply pair_eq; lra. }
      intros [E|[E1 E2]].
      + injection E as -> ->. split; [apply ONL; lra|]. exists (0, 2), (0, 0). split; [cbn; auto 10|]. exists (1 / 2). split; [lra|]. unfold along, vadd, smul, vsub. cbn [fst snd]. apply pair_eq; lra.
      + cbn [fst snd] in *. subst py. split; [apply ONL; lra|]. exists (2, 1), (1, 1). split; [cbn; auto 10|]. exists (2 - px). split; [lra|]. unfold along, vadd, smul, vsub. cbn [fst snd]. apply pair_eq; lra. }
  (* the corner (0,1) is isolated *)
  assert (ISO : forall l, proper_chain l -> (forall p, on_chain l p -> A p) -> ~ on_chain l (0, 1)).
  { intros l [_ P] I (a & b & Hab & (t & Ht & E)). pose proof (P a b Hab) as N.
    assert (SEG : forall y, on_seg a b y -> A y) by (intros y Hy; apply I; exists a, b; split; assumption).
    assert (Aa : A (along a b 0)) by (apply SEG; exists 0; split; [lra|reflexivity]). assert (Ab : A (along a b 1)) by (apply SEG; exists 1; split; [lra|reflexivity]).
    assert (Aq : A (along a b (1 / 4))) by (apply SEG; exists (1 / 4); split; [lra|reflexivity]).
    assert (Ar : A (along a b (3 / 4))) by (apply SEG; exists (3 / 4); split; [lra|reflexivity]).
    apply CHAR in Aa, Ab, Aq, Ar. destruct a as [a1 a2], b as [b1 b2]. unfold along, vadd, smul, vsub in *. cbn [fst snd] in *. injection E as E1 E2.
    assert (X0 : a1 = 0 /\ a2 = 1 \/ 1 <= a1 <= 2 /\ a2 = 1) by (destruct Aa as [Q|[Q1 Q2]]; [injection Q as Q1 Q2; left|right]; lra).
    assert (X1 : b1 = 0 /\ b2 = 1 \/ 1 <= b1 <= 2 /\ b2 = 1) by (destruct Ab as [Q|[Q1 Q2]]; [injection Q as Q1 Q2; left|right]; lra).
    assert (Xq : a1 + 1 / 4 * (b1 - a1) = 0 \/ 1 <= a1 + 1 / 4 * (b1 - a1) <= 2) by (destruct Aq as [Q|[Q1 Q2]]; [injection Q as Q1 Q2; left|right]; lra).
    assert (Xr : a1 + 3 / 4 * (b1 - a1) = 0 \/ 1 <= a1 + 3 / 4 * (b1 - a1) <= 2) by (destruct Ar as [Q|[Q1 Q2]]; [injection Q as Q1 Q2; left|right]; lra).
    assert (TB : (1 - t) * a1 + t * b1 = 0) by lra.
    assert (ZZ : a1 = 0 /\ b1 = 0) by (destruct X0 as [X0|X0]; destruct X1 as [X1|X1]; try lra; exfalso; nra). apply N. apply pair_eq; lra. }
  pose proof (D (-1, 1) (3, 1)) as D0. fold A in D0. unfold p_line_intersection. rewrite !from_shown by exact Hi. cbn [bind].
  assert (A01 : A (0, 1)) by (apply CHAR; left; reflexivity). assert (A11 : A (1, 1)) by (apply CHAR; right; cbn; lra).
  destruct (isect (-1, 1) (3, 1)) as [|q|l|l|ll|pts ll]; cbn [describes] in D0; [| | | | |reflexivity]; exfalso.
  - exact (D0 _ A01).
  - apply D0 in A01, A11. rewrite <- A01 in A11. injection A11 as E. lra.
  - destruct D0 as (_ & _ & D0). 
    set (f := fun n : nat => (1 + / (INR n + 1), 1) : Pt). set (k := map f (seq 0 (S (length l)))).
    assert (INJ : forall n n', f n = f n' -> n = n').
    { intros n n' E. unfold f in E. injection E as E. assert (K : / (INR n + 1) = / (INR n' + 1)) by lra. apply (f_equal Rinv) in K. rewrite !Rinv_inv in K. apply INR_eq. lra. }
    assert (NDk : NoDup k) by (apply FinFun.Injective_map_NoDup; [exact INJ|apply seq_NoDup]).
    assert (INC : incl k l).
    { intros p Hp. apply in_map_iff in Hp as (n & <- & _). apply D0. apply CHAR. right. unfold f. cbn [fst snd]. split; [reflexivity|]. pose proof (pos_INR n).
      assert (0 < / (INR n + 1)) by (apply Rinv_0_lt_compat; lra). assert (/ (INR n + 1) <= / 1) by (apply Rinv_le_contravar; lra). rewrite Rinv_1 in *. lra. }
    pose proof (NoDup_incl_length NDk INC) as LEN. unfold k in LEN. rewrite map_length, seq_length in LEN. lia.
  - destruct D0 as (P & D0). apply (ISO l P); [intros p Hp; apply D0; exact Hp|apply D0; exact A01].
  - destruct D0 as (_ & F & D0). apply D0 in A01 as (l & Hl & Hc). rewrite Forall_forall in F. apply (ISO l (F l Hl)); [|exact Hc]. intros p Hp. apply D0. exists l. split; assumption.
Qed.
Print Assumptions C80_line_intersection_refuted.

(** when the segment from the reference meets the border in two places only, the answer is the one nearer to the point *)
Theorem C57_two_places : forall isect m s x fi fo p q, s_mm s = m -> good fi -> good fo -> x <> s_xr s ->
  let e := vadd (s_xr s) (smul (11 / 10 * s_diam s / dist x (s_xr s)) (vsub x (s_xr s))) in (isect (s_xr s) e = GMultiPoint [p; q] \/ isect (s_xr s) e = GLine [p; q]) ->
  exists b, sp_boundary_mapping isect s (shown m fi x) fi fo = Ret (Some (shown m fo b)) /\ (b = p \/ b = q) /\ dist b x <= dist p x /\ dist b x <= dist q x.
Proof.
  intros isect m s x fi fo p q M Hi Ho NX e D. set (x0 := s_xr s) in *.
  assert (DP : 0 < dist x x0).
  { unfold dist. apply norm_pos. intros Z. apply NX. unfold vsub in Z. injection Z as Z1 Z2. destruct x, x0; cbn [fst snd] in *. apply pair_eq; lra. }
  assert (OO : forall y, transform m y OBSTACLE OBSTACLE = Ret y) by (intros y; destruct m; reflexivity).
  unfold sp_boundary_mapping. rewrite M, from_shown by exact Hi. cbn [bind]. fold x0.
  assert (RD : reference_direction m x0 x OBSTACLE OBSTACLE = Ret (smul (/ dist x x0) (vsub x x0))).
  { unfold reference_direction. rewrite !OO. cbn [bind]. cbv zeta. change (psub x x0) with (vsub x x0). rewrite (np_norm_norm (vsub x x0)). fold (dist x x0).
    destruct (Reqb_spec (dist x x0) 0); [lra|reflexivity]. }
  rewrite RD. cbn [bind]. unfold p_line_intersection. rewrite !OO. cbn [bind].
  change (padd x0 (scale (11 / 10 * s_diam s) (smul (/ dist x x0) (vsub x x0)))) with (vadd x0 (smul (11 / 10 * s_diam s) (smul (/ dist x x0) (vsub x x0)))).
  replace (vadd x0 (smul (11 / 10 * s_diam s) (smul (/ dist x x0) (vsub x x0)))) with e by (unfold e, vadd, smul; cbn [fst snd]; apply pair_eq; unfold Rdiv; ring).
  assert (G : geom_points (isect x0 e) = Ret [p; q]) by (destruct D as [-> | ->]; reflexivity). rewrite G. cbn [bind map_res]. rewrite !OO. cbn [bind map_res]. change (psub p x) with (vsub p x). change (psub q x) with (vsub q x). rewrite (np_norm_norm (vsub p x)), (np_norm_norm (vsub q x)). fold (dist p x) (dist q x).
  destruct (Rltb_spec (dist p x) (dist q x)) as [C|C]; [exists p|exists q]; rewrite (to_frame_ok m fo _ Ho), to_frame_shown by exact Ho; (split; [reflexivity|split; [auto|lra]]).
Qed.
Print Assumptions C57_two_places.
(** reference (1, 0), point (3, 0), and a border met at (2, 0) and (5, 0) *)
Example C57_two_places_example : let s := StarPol None (1, 0) [(0, 0); (5, -1); (5, 1)] [] 5 in let x : Pt := (3, 0) in
  x <> s_xr s /\ vadd (s_xr s) (smul (11 / 10 * s_diam s / dist x (s_xr s)) (vsub x (s_xr s))) = (13 / 2, 0) /\ dist ((2, 0) : Pt) x = 1 /\ dist ((5, 0) : Pt) x = 2.
Proof.
  cbv zeta. cbn [s_xr s_diam]. assert (E : dist ((3, 0) : Pt) (1, 0) = 2) by (apply dist_eq; [lra|unfold norm2, dot, vsub; cbn [fst snd]; lra]). rewrite E. split; [intros H; injection H as H; lra|]. split; [unfold vadd, smul, vsub; cbn [fst snd]; apply pair_eq; lra|]. split; (apply dist_eq; [lra|unfold norm2, dot, vsub; cbn [fst snd]; lra]).
Qed.
