(** obstacles/starshaped_primitive_combination.py: C86 (normal), C87 (caches). *)
From Coq Require Import Reals List Bool Arith ZArith Lra Lia Psatz Permutation.
From Verif Require Import Num M_Cg M_ConePolygon M_Motion M_Obstacle M_Ellipse M_Polygon M_StarPolygon M_Combination
  Spec L_Geom L_Cg L_Obstacle L_Ellipse P_Ellipse L_Polygon L_StarPolygon P_StarPolygon P_Combination P_CombBoundary.
Import ListNotations.
Local Open Scope R_scope.

(** *** C86: the member or the hull whose normal is used *)
(* list number k has a point that is farthest of all, and no earlier list has one as far *)
Definition farthest (xr : Pt) (lss : list (list Pt)) (k : nat) (p : Pt) : Prop :=
  (exists l, nth_error lss k = Some l /\ In p l) /\
  (forall l q, In l lss -> In q l -> dist q xr <= dist p xr) /\
  (forall j l q, (j < k)%nat -> nth_error lss j = Some l -> In q l -> dist q xr < dist p xr).

Lemma far_point_spec xr i : forall l a d, let r := far_point xr i l (a, d) in
  (r = (a, d) /\ forall q, In q l -> dist q xr <= d) \/
  (exists p, r = (i, dist p xr) /\ In p l /\ d < dist p xr /\ forall q, In q l -> dist q xr <= dist p xr).
Proof.
  induction l as [|p l IH]; intros a d; cbn [far_point]; [left; split; [reflexivity|intros q []]|]. cbv zeta.
  change (np_norm (psub p xr)) with (dist p xr). cbn [snd]. destruct (Rltb_spec d (dist p xr)) as [L|L].
  - right. destruct (IH i (dist p xr)) as [[E M]|(q & E & I & Q & M)]; cbv zeta in E; rewrite E.
    + exists p. split; [reflexivity|]. split; [left; reflexivity|]. split; [exact L|]. intros q [<-|Iq]; [lra|apply M, Iq].
    + exists q. split; [reflexivity|]. split; [right; exact I|]. split; [lra|]. intros r [<-|Ir]; [lra|apply M, Ir].
  - destruct (IH a d) as [[E M]|(q & E & I & Q & M)]; cbv zeta in E; rewrite E.
    + left. split; [reflexivity|]. intros q [<-|Iq]; [lra|apply M, Iq].
    + right. exists q. split; [reflexivity|]. split; [right; exact I|]. split; [exact Q|]. intros r [<-|Ir]; [lra|apply M, Ir].
Qed.
Definition chosen (xr : Pt) (pre : list (list Pt)) (acc : nat * R) : Prop :=
  (acc = (0%nat, -1) /\ forall l, In l pre -> l = []) \/ (exists p, farthest xr pre (fst acc) p /\ snd acc = dist p xr).
Lemma chosen_step xr pre l acc : chosen xr pre acc -> chosen xr (pre ++ [l]) (far_point xr (length pre) l acc).
Proof.
  intros C. destruct acc as [a d]. destruct (far_point_spec xr (length pre) l a d) as [[E M]|(p & E & I & Q & M)]; cbv zeta in E; rewrite E.
  - destruct C as [[Z N]|(p & (H1 & H2 & H3) & D)].
    + injection Z as -> ->. left. split; [reflexivity|]. intros l' I. apply in_app_or in I as [I|[<-|[]]]; [apply N, I|].
      destruct l as [|q l]; [reflexivity|]. specialize (M q (or_introl eq_refl)). pose proof (dist_nonneg q xr). lra.
    + right. exists p. cbn [fst snd] in *. split; [|exact D]. destruct H1 as (l' & N' & I'). assert (HA : (a < length pre)%nat) by (apply nth_error_Some; congruence).
      split; [exists l'; rewrite nth_error_app1 by exact HA; auto|]. split.
      * intros l2 q I2 Iq. apply in_app_or in I2 as [I2|[<-|[]]]; [eapply H2; eassumption|]. rewrite <- D. apply M, Iq.
      * intros j l2 q Hj Nj Iq. rewrite nth_error_app1 in Nj by lia. eapply H3; eassumption.
  - right. exists p. cbn [fst snd]. split; [|reflexivity].
    assert (OLD : forall l2 q, In l2 pre -> In q l2 -> dist q xr < dist p xr).
    { intros l2 q I2 Iq. destruct C as [[Z N]|(p' & (_ & H2 & _) & D)]; [rewrite (N l2 I2) in Iq; destruct Iq|]. specialize (H2 l2 q I2 Iq). cbn [snd] in D. lra. }
    split; [exists l; rewrite nth_error_app2, Nat.sub_diag by lia; auto|]. split.
    + intros l2 q I2 Iq. apply in_app_or in I2 as [I2|[<-|[]]]; [left; eapply OLD; eassumption|apply M, Iq].
    + intros j l2 q Hj Nj Iq. rewrite nth_error_app1 in Nj by exact Hj. apply nth_error_In in Nj. eapply OLD; eassumption.
Qed.
Lemma chosen_all xr : forall ls pre acc, chosen xr pre acc -> chosen xr (pre ++ ls) (far_member xr (length pre) ls acc).
Proof.
  induction ls as [|l ls IH]; intros pre acc C; cbn [far_member]; [rewrite app_nil_r; exact C|].
  apply chosen_step with (l := l) in C. apply IH in C. rewrite <- app_assoc in C. rewrite app_length in C. cbn [length app] in C. rewrite Nat.add_1_r in C. exact C.
Qed.
(** sub_normal uses the first member, or else the hull, with the farthest intersection; member 0 if there is none. *)
Theorem C86_sub_index : forall (c : comb) (x : Pt) ls, let e := probe (cb_xr c) x in
  map_res (fun o => mb_line_intersection o (cb_xr c) e) (cb_members c) = Ret ls ->
  let lh := match hull_points (cb_hull c) (cb_xr c) e with Some l => l | None => [] end in
  exists k, sub_index c x = Ret k /\ ((k = 0%nat /\ forall l, In l (ls ++ [lh]) -> l = []) \/ exists p, farthest (cb_xr c) (ls ++ [lh]) k p).
Proof.
  intros c x ls e E lh. unfold sub_index. rewrite probe_eq. fold e. rewrite E. cbn [bind]. cbv zeta.
  assert (L : length ls = length (cb_members c)).
  { clear - E. revert ls E. induction (cb_members c) as [|o ms IH]; intros ls E; cbn [map_res] in E; [injection E as <-; reflexivity|].
    destruct (mb_line_intersection o (cb_xr c) e); cbn [bind] in E; [|discriminate]. destruct (map_res _ ms) as [ys|]; cbn [bind] in E; [|discriminate].
    injection E as <-. cbn [length]. f_equal. apply IH. reflexivity. }
  assert (C0 : chosen (cb_xr c) [] (0%nat, -1)) by (left; split; [reflexivity|intros l []]).
  apply (chosen_all _ ls) in C0. cbn [app length] in C0. apply (chosen_step _ _ lh) in C0. rewrite L in C0.
  set (acc := far_member (cb_xr c) 0 ls (0%nat, -1)) in *.
  assert (R : (match hull_points (cb_hull c) (cb_xr c) e with Some l => Ret (fst (far_point (cb_xr c) (length (cb_members c)) l acc)) | None => Ret (fst acc) end)
    = Ret (fst (far_point (cb_xr c) (length (cb_members c)) lh acc))).
  { unfold lh. destruct (hull_points (cb_hull c) (cb_xr c) e); reflexivity. }
  rewrite R. eexists. split; [reflexivity|]. destruct C0 as [[Z N]|(p & F & _)]; [left|right; exists p; exact F].
  rewrite Z. split; [reflexivity|exact N].
Qed.
Print Assumptions C86_sub_index.

(** The hull's normal and the polygon approximation are the edge normal of a StarshapedPolygon with these vertices. *)
Definition some_normal (r : res RPt) : res (option RPt) := bind r (fun n => Ret (Some n)).
Lemma normalised_edge nearest argsort (v : list Pt) (xr x : Pt) : let s := sp_new argsort None v xr in
  normalised (edge_normal (vert s (pred_idx (facing s x) (length (s_vertices s)))) (vert s (facing s x))) = some_normal (sp_normal nearest s x GLOBAL GLOBAL Edge).
Proof.
  cbv zeta. set (s := sp_new argsort None v xr). unfold sp_normal. change (s_mm s) with (@None mm). cbn [transform bind normal_at]. cbv zeta.
  unfold normalised, some_normal. destruct (Reqb _ 0); reflexivity.
Qed.
Theorem C86_hull_normal : forall nearest argsort (v : list Pt) (xr x : Pt), (forall l, sorts l (argsort l)) -> v <> [] ->
  hull_normal argsort xr v x = some_normal (sp_normal nearest (sp_new argsort None v xr) x GLOBAL GLOBAL Edge).
Proof.
  intros nearest argsort v xr x A NE. rewrite <- normalised_edge. unfold hull_normal.
  destruct (update_angles argsort xr v) as [w phi] eqn:U.
  assert (EV : s_vertices (sp_new argsort None v xr) = w) by (unfold sp_new; cbn [s_vertices]; rewrite U; reflexivity).
  assert (EP : s_angles (sp_new argsort None v xr) = phi) by (unfold sp_new; cbn [s_angles]; rewrite U; reflexivity).
  destruct (table_angles argsort xr v A) as (P & _ & T). rewrite U in P, T. cbn [fst snd] in P, T. specialize (T NE).
  assert (LW : (0 < length w)%nat) by (apply Permutation_length in P; rewrite <- P; destruct v; [congruence|cbn; lia]).
  unfold facing, vert. rewrite EV, EP. change (s_xr (sp_new argsort None v xr)) with xr. cbv zeta.
  set (k := match first_above (vertex_angle xr x) phi with Some i => i | None => 0%nat end).
  assert (HK : (k <= length w)%nat).
  { assert (LP : length phi = S (length w)) by (rewrite T, app_length, map_length; cbn; lia).
    assert (FA : forall a l i, first_above a l = Some i -> (i < length l)%nat).
    { clear. intros a. induction l as [|t l IH]; intros i H; cbn [first_above] in H; [discriminate|]. destruct (Rltb a t); [injection H as <-; cbn; lia|].
      destruct (first_above a l) as [j|]; [|discriminate]. injection H as <-. specialize (IH j eq_refl). cbn. lia. }
    unfold k. destruct (first_above (vertex_angle xr x) phi) as [i|] eqn:Ei; [|lia]. apply FA in Ei. lia. }
  assert (N0 : nth (length w) (w ++ [nth 0 w (0, 0)]) (0, 0) = nth 0 w (0, 0)) by (rewrite app_nth2, Nat.sub_diag by lia; reflexivity).
  assert (N1 : forall i, (i < length w)%nat -> nth i (w ++ [nth 0 w (0, 0)]) (0, 0) = nth i w (0, 0)) by (intros i Hi; apply app_nth1, Hi).
  f_equal. destruct (Nat.eqb_spec k 0) as [K0|K0].
  - rewrite K0. replace (0 =? length w)%nat with false by (symmetry; apply Nat.eqb_neq; lia). cbn [pred_idx]. rewrite N0, N1 by lia. reflexivity.
  - destruct (Nat.eqb_spec k (length w)) as [K1|K1].
    + rewrite K1. cbn [pred_idx]. rewrite N0, N1 by lia. reflexivity.
    + rewrite !N1 by lia. destruct k as [|k']; [lia|]. cbn [pred_idx]. replace (S k' - 1)%nat with k' by lia. reflexivity.
Qed.
Print Assumptions C86_hull_normal.

(* the operations on a combination; [lives_move]: the members move, their methods answer differently *)
Inductive lives (argsort : list R -> list nat) : comb -> Prop :=
| lives_new l h xr : lives argsort (cb_new l h xr)
| lives_read c u : lives argsort c -> lives argsort (fst (cb_read_polygon u c))
| lives_set c z : lives argsort c -> lives argsort (fst (cb_set_xr argsort z c))
| lives_normal c c' : lives argsort c -> cb_update_angles argsort c = Ret c' -> lives argsort c'
| lives_move c l : lives argsort c -> length l = length (cb_members c) ->
    lives argsort (Comb l (cb_hull c) (cb_xr c) (cb_polygon c) (cb_table c)).
(** The vertex table always belongs to the polygon held and to the present reference point. *)
Theorem C87_table : forall argsort c t, lives argsort c -> cb_table c = Some t ->
  exists v, cb_polygon c = Some v /\ t = update_angles argsort (cb_xr c) v.
Proof.
  intros argsort c t L. revert t. induction L as [l h xr|c u L IH|c z L IH|c c' L IH U|c l L IH Q]; intros t T.
  - discriminate.
  - unfold cb_read_polygon in *. destruct (cb_polygon c) as [v|] eqn:P; cbn [fst cb_table cb_polygon cb_xr] in *.
    + destruct (IH t T) as (v' & E & ->). exists v'. split; [congruence|reflexivity].
    + destruct (IH t T) as (v' & E & _). discriminate.
  - unfold cb_set_xr in *. cbv zeta in *. unfold cb_update_angles in *. cbn [cb_members cb_hull cb_xr cb_polygon cb_table] in *.
    destruct (cb_polygon c) as [v|] eqn:P; cbn [fst cb_table cb_polygon cb_xr] in *.
    + exists v. split; [reflexivity|congruence].
    + destruct (IH t T) as (v' & E & _). discriminate.
  - unfold cb_update_angles in U. destruct (cb_polygon c) as [v|] eqn:P; [|discriminate]. injection U as <-. cbn [cb_table cb_polygon cb_xr] in *.
    exists v. split; [reflexivity|congruence].
  - apply IH, T.
Qed.
Print Assumptions C87_table.
(** Once read, the polygon stays the same whatever the members do. *)
Inductive later (argsort : list R -> list nat) : comb -> comb -> Prop :=
| later_refl c : later argsort c c
| later_read c c' u : later argsort c c' -> later argsort c (fst (cb_read_polygon u c'))
| later_set c c' z : later argsort c c' -> later argsort c (fst (cb_set_xr argsort z c'))
| later_move c c' l : later argsort c c' -> length l = length (cb_members c') ->
    later argsort c (Comb l (cb_hull c') (cb_xr c') (cb_polygon c') (cb_table c')).
Theorem C87_polygon_kept : forall argsort c c' u u' v, later argsort (fst (cb_read_polygon u c)) c' -> snd (cb_read_polygon u c) = v ->
  snd (cb_read_polygon u' c') = v.
Proof.
  intros argsort c c' u u' v L E.
  assert (H : cb_polygon (fst (cb_read_polygon u c)) = Some v).
  { unfold cb_read_polygon in *. destruct (cb_polygon c) eqn:P; cbn [fst snd cb_polygon] in *; congruence. }
  clear E. assert (G : cb_polygon c' = Some v).
  { remember (fst (cb_read_polygon u c)) as c0 eqn:E0. clear E0. induction L as [c0|c0 c' w L IH|c0 c' z L IH|c0 c' l L IH Q].
    - exact H.
    - specialize (IH H). unfold cb_read_polygon. rewrite IH. exact IH.
    - specialize (IH H). unfold cb_set_xr, cb_update_angles. cbn [cb_polygon]. cbv zeta. rewrite IH. reflexivity.
    - apply IH, H. }
  unfold cb_read_polygon. rewrite G. reflexivity.
Qed.
Print Assumptions C87_polygon_kept.
(** ... while point_location asks the members: after a member moved, the two disagree. *)
Theorem C87_stale_refuted : exists (E E' : ellipse) (v : list Pt) (x : Pt), 
  (* the same disc at two places, v the vertices of a polygon around the first place *)
  e_a E = e_a E' /\ (forall p, In p v -> e_point_location E p GLOBAL = Ret 0) /\ in_hull v x /\
  let c0 := cb_new [ellipse_member E] None (0, 0) in let c1 := fst (cb_read_polygon v c0) in
  let c2 := Comb [ellipse_member E'] (cb_hull c1) (cb_xr c1) (cb_polygon c1) (cb_table c1) in
  snd (cb_read_polygon v c0) = v /\ cb_point_location c0 x = Ret (-1) /\
  forall u, snd (cb_read_polygon u c2) = v /\ cb_point_location c2 x = Ret 1.
Proof.
  exists (disc 1 CStatic (0, 0)), (disc 1 CStatic (10, 0)), [(1, 0); (0, 1); (-1, 0); (0, -1)], (0, 0).
  split; [reflexivity|]. split; [|split].
  - intros p I. destruct (C40_point_location (disc 1 CStatic (0, 0)) GLOBAL p (or_introl eq_refl)) as (loc & E & _ & Z & _).
    cbn [disc e_mm e_a] in E, Z. rewrite disc_shown in E. replace (vadd p (0, 0)) with p in E by (destruct p; unv; f_equal; ring).
    fold (disc 1 CStatic (0, 0)) in E. rewrite E. f_equal. apply Z. unfold on_ellipse, ell_form.
    destruct I as [<-|[<-|[<-|[<-|[]]]]]; cbn [fst snd]; field.
  - exists [1 / 4; 1 / 4; 1 / 4; 1 / 4]. split; [reflexivity|]. split; [repeat constructor; lra|]. split; [unfold rsum; cbn [fold_right]; lra|].
    unfold wsum. cbn. unv. apply pair_eq; lra.
  - cbv zeta. split; [reflexivity|]. split.
    + unfold cb_point_location. cbn [cb_new cb_members map_res ellipse_member mb_location].
      destruct (disc_location 1 CStatic (0, 0) (0, 0)) as (l1 & E1 & W & _); [lra|].
      replace (vadd (0, 0) (0, 0)) with ((0, 0) : Pt) in E1 by (unv; f_equal; ring). rewrite E1. cbn [bind app existsb].
      destruct (Rltb_spec l1 0) as [|X]; [reflexivity|]. exfalso. apply (Rle_not_lt _ _ X), W. unfold norm2, dot. cbn [fst snd]. lra.
    + intros u. split; [reflexivity|]. unfold cb_point_location. cbn [cb_new cb_read_polygon cb_polygon fst cb_hull cb_xr cb_table cb_members map_res ellipse_member mb_location].
      destruct (disc_location 1 CStatic (10, 0) (-10, 0)) as (l1 & E1 & _ & W); [lra|].
      replace (vadd (-10, 0) (10, 0)) with ((0, 0) : Pt) in E1 by (unv; f_equal; ring). rewrite E1. cbn [bind app existsb hull_location].
      assert (L : 0 < l1) by (apply W; unfold norm2, dot; cbn [fst snd]; lra).
      destruct (Rltb_spec l1 0) as [X|_]; [lra|]. destruct (Rltb_spec 1 0) as [X|_]; [lra|]. destruct (Reqb_spec l1 0) as [X|_]; [lra|].
      destruct (Reqb_spec 1 0) as [X|_]; [lra|]. reflexivity.
Qed.
Print Assumptions C87_stale_refuted.
(** set_xr before the polygon was read: the reference point is changed and the call fails. *)
Theorem C87_set_xr_refuted : forall argsort l h xr z, cb_set_xr argsort z (cb_new l h xr) = (cb_new l h z, Exn AttributeErr).
Proof. reflexivity. Qed.
Print Assumptions C87_set_xr_refuted.
Theorem C87_set_xr_partial : forall argsort c v z, (forall l, sorts l (argsort l)) -> v <> [] -> cb_polygon c = Some v ->
  exists c' t, cb_set_xr argsort z c = (c', Ret tt) /\ cb_xr c' = z /\ cb_polygon c' = Some v /\ cb_table c' = Some t /\
    Permutation v (fst t) /\ ascending (vertex_angle z) (fst t) /\
    snd t = map (vertex_angle z) (fst t) ++ [vertex_angle z (nth 0 (fst t) (0, 0)) + 2 * PI].
Proof.
  intros argsort c v z A NE P. unfold cb_set_xr, cb_update_angles. cbn [cb_polygon]. cbv zeta. rewrite P. do 2 eexists. split; [reflexivity|].
  cbn [cb_xr cb_polygon cb_table cb_members cb_hull]. split; [reflexivity|]. split; [reflexivity|]. split; [reflexivity|].
  destruct (table_angles argsort z v A) as (H1 & H2 & H3). split; [exact H1|]. split; [exact H2|]. apply H3, NE.
Qed.
Print Assumptions C87_set_xr_partial.
Example C87_example : let c0 := cb_new [ellipse_member (disc 1 CStatic (0, 0))] None (0, 0) in
  let c1 := fst (cb_read_polygon [(1, 0); (0, 1); (-1, 0); (0, -1)] c0) in
  (forall l, sorts l (insertion_argsort l)) /\ lives insertion_argsort (fst (cb_set_xr insertion_argsort (1 / 2, 0) c1)) /\
  later insertion_argsort c1 (fst (cb_set_xr insertion_argsort (1 / 2, 0) c1)) /\ exists t, cb_table (fst (cb_set_xr insertion_argsort (1 / 2, 0) c1)) = Some t.
Proof.
  cbv zeta. split; [exact C54_argsort_exists|]. split; [apply lives_set, lives_read, lives_new|]. split; [apply later_set, later_refl|]. eexists. reflexivity.
Qed.

(** *** C86: the other types *)
(** polygon_approx: the edge normal of the polygon held, as a StarshapedPolygon with the present reference point gives it. *)
Theorem C86_polygon_approx : forall argsort nearest c v x, lives argsort c -> cb_polygon c = Some v ->
  cb_normal argsort nearest c x PolygonApprox = some_normal (sp_normal nearest (sp_new argsort None v (cb_xr c)) x GLOBAL GLOBAL Edge).
Proof.
  intros argsort nearest c v x L P. rewrite <- normalised_edge. unfold cb_normal.
  assert (T : (match cb_table c with Some t => Ret t | None => bind (cb_update_angles argsort c) (fun c' => match cb_table c' with Some t => Ret t | None => Exn AttributeErr end) end)
    = Ret (update_angles argsort (cb_xr c) v)).
  { destruct (cb_table c) as [t|] eqn:T.
    - destruct (C87_table argsort c t L T) as (v' & P' & ->). congruence.
    - unfold cb_update_angles. rewrite P. reflexivity. }
  rewrite T. cbn [bind]. unfold approx_normal, sp_new. cbv zeta. reflexivity.
Qed.
Print Assumptions C86_polygon_approx.
(** What that normal is: a unit vector orthogonal to the edge facing x and pointing away from the reference point. *)
Theorem C86_edge : forall argsort nearest (v : list Pt) (xr x : Pt), (forall l, sorts l (argsort l)) -> v <> [] -> ccw_around xr v -> x <> xr ->
  exists u w, In (u, w) (cyc_edges v) /\ faces xr u w x v /\
    (u <> w -> exists n, norm n = 1 /\ dot n (vsub w u) = 0 /\ (0 < area2 xr u w -> 0 < dot n (vsub u xr)) /\
       hull_normal argsort xr v x = Ret (Some n) /\
       forall c, lives argsort c -> cb_polygon c = Some v -> cb_xr c = xr -> cb_normal argsort nearest c x PolygonApprox = Ret (Some n)).
Proof.
  intros argsort nearest v xr x A NE CC NX. set (s := sp_new argsort None v xr).
  assert (NV : forall p, In p v -> p <> xr).
  { intros p Hp ->. destruct CC as (ts & FF & _). clear - FF Hp. induction FF as [|q t l ts S FF IH]; [destruct Hp|]. destruct Hp as [->|Hp]; [|exact (IH Hp)].
    apply sees_ne in S. apply S. destruct xr; unfold vsub; cbn [fst snd]. apply pair_eq; ring. }
  pose proof (history_new argsort None v xr) as H. fold s in H.
  pose proof (C54_table_follows_boundary argsort None v v s A NE H (or_introl eq_refl) CC) as RT.
  destruct (C55_normal nearest argsort None v s x GLOBAL GLOBAL A NE H NV NX (or_introl eq_refl) (or_introl eq_refl)) as (u & w & I & F & _ & W).
  exists u, w. split; [apply (cyc_edges_rotation _ _ _ RT), I|]. split; [exact F|]. intros UW. destruct (W UW) as (n & Q & H1 & H2 & _ & H3).
  cbn [shown] in Q, H2, H3. exists n. split; [exact H1|]. split; [exact H2|]. split; [intros C; apply H3, C|].
  rewrite (C86_hull_normal nearest argsort v xr x A NE). fold s. rewrite Q. split; [reflexivity|].
  intros c L P X. rewrite (C86_polygon_approx argsort nearest c v x L P), X. fold s. rewrite Q. reflexivity.
Qed.
Print Assumptions C86_edge.
(** sub_normal: the normal of the chosen member or the edge normal of the hull *)
Theorem C86_sub_normal : forall argsort nearest c x k, sub_index c x = Ret k ->
  (forall o, nth_error (cb_members c) k = Some o -> cb_normal argsort nearest c x SubNormal = mb_normal o x) /\
  (forall g, (length (cb_members c) <= k)%nat -> cb_hull c = Some g -> cb_normal argsort nearest c x SubNormal = hull_normal argsort (cb_xr c) (hg_vertices g) x).
Proof.
  intros argsort nearest c x k E. unfold cb_normal. rewrite E. cbn [bind]. split.
  - intros o ->. reflexivity.
  - intros g L ->. apply nth_error_None in L. rewrite L. reflexivity.
Qed.
Print Assumptions C86_sub_normal.
(** The default type and polygon_approx fail until polygon() has been called; an unknown type gives None. *)
Theorem C86_fresh_refuted : forall argsort nearest l h xr x, 
  cb_normal argsort nearest (cb_new l h xr) x WeightedApprox = Exn AttributeErr /\
  cb_normal argsort nearest (cb_new l h xr) x PolygonApprox = Exn AttributeErr /\
  (forall c, cb_normal argsort nearest c x OtherNormal = Ret None).
Proof. intros. split; [reflexivity|]. split; reflexivity. Qed.
Print Assumptions C86_fresh_refuted.
(** weigthed_polygon_approx: a unit vector along a positively weighted sum of the normals of three neighbouring edges. *)
Theorem C86_weighted : forall argsort nearest c v x n, lives argsort c -> cb_polygon c = Some v ->
  cb_normal argsort nearest c x WeightedApprox = Ret n -> exists n' es ws, n = Some n' /\ norm n' = 1 /\ length es = 3%nat /\ length ws = 3%nat /\
    Forall (fun w => 0 < w) ws /\ n' = wsum ws (map (fun e => edge_normal (fst e) (snd e)) es) /\
    (v <> [] -> (forall l, sorts l (argsort l)) -> Forall (fun e => In (fst e) v /\ In (snd e) v) es).
Proof.
  intros argsort nearest c v x n L P E. unfold cb_normal in E.
  assert (T : (match cb_table c with Some t => Ret t | None => bind (cb_update_angles argsort c) (fun c' => match cb_table c' with Some t => Ret t | None => Exn AttributeErr end) end)
    = Ret (update_angles argsort (cb_xr c) v)).
  { destruct (cb_table c) as [t|] eqn:T.
    - destruct (C87_table argsort c t L T) as (v' & P' & ->). congruence.
    - unfold cb_update_angles. rewrite P. reflexivity. }
  rewrite T in E. cbn [bind] in E. unfold approx_normal in E. cbv zeta in E. set (t := update_angles argsort (cb_xr c) v) in *.
  set (s := StarPol None (cb_xr c) (fst t) (snd t) 0) in *. set (m := length (fst t)) in *. set (k := facing s x) in *.
  set (es := map (fun i => (vert s ((k + i + 2 * m - 2) mod m), vert s ((k + i + m - 1) mod m))) [0; 1; 2]%nat) in *.
  set (f := fun e : RPt * RPt => 1 / (np_norm (psub (nearest (fst e) (snd e) x) x) + 1 / 10000000000)) in *.
  assert (FP : forall e, 0 < f e).
  { intros e. unfold f. change (np_norm (psub (nearest (fst e) (snd e) x) x)) with (dist (nearest (fst e) (snd e) x) x). pose proof (dist_nonneg (nearest (fst e) (snd e) x) x).
    apply Rdiv_lt_0_compat; lra. }
  set (total := fold_right Rplus 0 (map f es)) in *.
  assert (EN : exists e0 e1 e2, es = [e0; e1; e2]) by (unfold es; cbn [map]; eauto). destruct EN as (e0 & e1 & e2 & EE).
  assert (TP : 0 < total) by (unfold total; rewrite EE; cbn [map fold_right]; pose proof (FP e0); pose proof (FP e1); pose proof (FP e2); lra).
  rewrite EE in E. cbn [map combine fold_right fst snd] in E. unfold normalised in E.
  match type of E with context [np_norm ?N] => set (nn := N) in * end. change (np_norm nn) with (norm nn) in E.
  destruct (Reqb_spec (norm nn) 0) as [Z|Z]; [discriminate|]. injection E as <-. assert (NP : 0 < norm nn) by (pose proof (sqrt_pos (norm2 nn)); fold (norm nn) in *; lra).
  assert (IP : 0 < / norm nn) by (apply Rinv_0_lt_compat, NP).
  exists (scale (/ norm nn) nn), es, [/ norm nn * (f e0 / total); / norm nn * (f e1 / total); / norm nn * (f e2 / total)].
  split; [reflexivity|]. split; [change (scale (/ norm nn) nn) with (smul (/ norm nn) nn); rewrite norm_smul, Rabs_right by lra; field; lra|].
  split; [rewrite EE; reflexivity|]. split; [reflexivity|]. split; [|split].
  - constructor; [|constructor; [|constructor; [|constructor]]]; (apply Rmult_lt_0_compat; [exact IP|apply Rdiv_lt_0_compat; [apply FP|exact TP]]).
  - rewrite EE. cbn [map wsum]. change (scale (/ norm nn) nn) with (smul (/ norm nn) nn). generalize (/ norm nn). intros r. unfold nn.
    unfold padd. cbn [nadd NumR].
    unfold edge_normal, smul, vadd, scale, Rdiv. cbn [fst snd]. apply pair_eq; ring.
  - intros NE A. destruct (table_angles argsort (cb_xr c) v A) as (PP & _). fold t in PP.
    assert (M : (0 < m)%nat) by (unfold m; apply Permutation_length in PP; rewrite <- PP; destruct v; [congruence|cbn; lia]).
    assert (V : forall i, In (vert s (i mod m)) v).
    { intros i. apply (Permutation_in _ (Permutation_sym PP)). unfold vert, s. cbn [s_vertices]. apply nth_In. apply Nat.mod_upper_bound. lia. }
    unfold es. cbn [map]. constructor; [|constructor; [|constructor; [|constructor]]]; split; apply V.
Qed.
Print Assumptions C86_weighted.
Example C86_example : ccw_around (0, 0) [(4, 0); (0, 4); (-4, 0); (0, -4)] /\ ((10, 10) : Pt) <> (0, 0) /\ (forall l, sorts l (insertion_argsort l)).
Proof. destruct C55_example as [H1 H2]. split; [exact H1|]. split; [exact H2|exact C54_argsort_exists]. Qed.
