(** C104: arrays of points. *)
From Coq Require Import Reals List Bool Arith Lia Lra.
From Verif Require Import Num Spec M_Cg M_Motion M_Obstacle M_Arrays L_Geom L_Cg P_Obstacle.
Import ListNotations.
Open Scope R_scope.

(** what is asked for: one direction per row *)
Definition row_by_row {A B} (f : A -> res B) (xs : list A) (answer : res (list B)) : Prop :=
  exists ys, answer = Ret ys /\ Forall2 (fun x y => f x = Ret y) xs ys.
(** no change of frame *)
Definition same_frame (m : option mm) (fi fo : frame) : Prop := m = None \/ fi = fo.

Lemma rows_same m xs fi fo : same_frame m fi fo -> transform_rows m xs fi fo = Ret xs.
Proof. intros [->| ->]; [reflexivity|]. destruct m; [|reflexivity]. cbn. destruct fo; reflexivity. Qed.
Lemma point_same m x fi fo : same_frame m fi fo -> transform m x fi fo = Ret x.
Proof. intros [->| ->]; [reflexivity|]. destruct m; [|reflexivity]. cbn. destruct fo; reflexivity. Qed.
Lemma scale_div d : np_norm d <> 0 -> scale (/ np_norm d) d = (fst d / np_norm d, snd d / np_norm d).
Proof. intros N. destruct d as [u v]. set (n := np_norm (u, v)) in *. cbn [fst snd]. unfold scale. nR. cbn [fst snd]. unfold Rdiv. apply pair_eq; ring. Qed.

(** one row: as for the point *)
Theorem C104_one_row_partial : forall m xr x fi fo, same_frame m fi fo ->
  reference_direction_rows m xr [x] fi fo = bind (reference_direction m xr x fi fo) (fun d => Ret [d]).
Proof.
  intros m xr x fi fo H. unfold reference_direction_rows, reference_direction. rewrite (rows_same _ _ _ _ H), (point_same _ _ _ _ H). cbn [bind].
  destruct (transform m xr OBSTACLE fo) as [xro|e]; [|reflexivity]. cbn [bind map divide_by_norms].
  destruct (Reqb_spec (np_norm (psub x xro)) 0) as [E|N]; [reflexivity|]. cbn [bind]. rewrite scale_div by exact N. reflexivity.
Qed.
Print Assumptions C104_one_row_partial.

(** two rows: right exactly when the points are equally far from xr, or lie on the two axes through it *)
Theorem C104_two_rows_partial : forall m xr xro x y fi fo, same_frame m fi fo -> transform m xr OBSTACLE fo = Ret xro -> x <> xro -> y <> xro ->
  (row_by_row (fun p => reference_direction m xr p fi fo) [x; y] (reference_direction_rows m xr [x; y] fi fo) <->
   dist x xro = dist y xro \/ (snd x = snd xro /\ fst y = fst xro)).
Proof.
  intros m xr xro x y fi fo H T Nx Ny. unfold reference_direction_rows. rewrite (rows_same _ _ _ _ H), T. cbn [bind map divide_by_norms].
  assert (RD : forall p, reference_direction m xr p fi fo = if Reqb (np_norm (psub p xro)) 0 then Exn NotFinite else Ret (scale (/ np_norm (psub p xro)) (psub p xro))).
  { intros p. unfold reference_direction. rewrite (point_same _ _ _ _ H), T. reflexivity. }
  assert (P : forall p, p <> xro -> 0 < np_norm (psub p xro)).
  { intros p N. rewrite np_norm_norm. change (psub p xro) with (vsub p xro). unfold norm. apply sqrt_lt_R0. destruct p as [u v], xro as [a b]. unfold norm2, dot, vsub. cbn [fst snd].
    destruct (Req_dec u a) as [->|K]; [|assert (0 < (u - a) * (u - a)) by (apply Rlt_0_sqr; intros Z; apply K; lra); pose proof (Rle_0_sqr (v - b)) as Z2; unfold Rsqr in Z2; lra]. assert (H0 : v <> b) by (intros ->; apply N; reflexivity). assert (0 < (v - b) * (v - b)) by (apply Rlt_0_sqr; intros Z; apply H0; lra). pose proof (Rle_0_sqr (a - a)) as Z2; unfold Rsqr in Z2; lra. }
  pose proof (P x Nx) as Px. pose proof (P y Ny) as Py.
  assert (Ex : np_norm (psub x xro) = dist x xro) by (rewrite np_norm_norm; reflexivity).
  assert (Ey : np_norm (psub y xro) = dist y xro) by (rewrite np_norm_norm; reflexivity).
  set (dx := psub x xro) in *. set (dy := psub y xro) in *. rewrite Ex, Ey in *.
  assert (Fx : snd dx = snd x - snd xro) by reflexivity. assert (Fy : fst dy = fst y - fst xro) by reflexivity.
  assert (Sx : scale (/ dist x xro) dx = (fst dx / dist x xro, snd dx / dist x xro)) by (rewrite <- Ex; apply scale_div; lra).
  assert (Sy : scale (/ dist y xro) dy = (fst dy / dist y xro, snd dy / dist y xro)) by (rewrite <- Ey; apply scale_div; lra).
  destruct (Reqb_spec (dist x xro) 0); [lra|]. destruct (Reqb_spec (dist y xro) 0); [lra|]. cbn [orb].
  assert (Q : forall u a b, 0 < a -> 0 < b -> u / a = u / b -> a = b \/ u = 0).
  { intros u a b A B E. destruct (Req_dec u 0); [right; assumption|left]. assert (E2 : u * b = u * a) by (apply (f_equal (fun t => t * a * b)) in E; unfold Rdiv in E; field_simplify in E; lra). nra. }
  split.
  - intros (ys & E & F). injection E as <-. inversion_clear F as [|? ? ? ? F1 F2]. inversion_clear F2 as [|? ? ? ? F3 _]. rewrite RD in F1, F3. fold dx in F1. fold dy in F3. rewrite Ex in F1. rewrite Ey in F3.
    destruct (Reqb_spec (dist x xro) 0); [lra|]. destruct (Reqb_spec (dist y xro) 0); [lra|]. rewrite Sx in F1. rewrite Sy in F3. injection F1 as F1. injection F3 as F3.
    destruct (Q _ _ _ Px Py F1) as [K|K]; [left; exact K|]. destruct (Q _ _ _ Py Px F3) as [K'|K']; [left; symmetry; exact K'|]. right. lra.
  - intros K. eexists. split; [reflexivity|]. constructor; [|constructor; [|constructor]].
    + rewrite RD. fold dx. rewrite Ex. destruct (Reqb_spec (dist x xro) 0); [lra|]. rewrite Sx. apply f_equal, pair_eq; [reflexivity|]. destruct K as [K|[K _]]; [rewrite K; reflexivity|]. replace (snd dx) with 0 by lra. unfold Rdiv. ring.
    + rewrite RD. fold dy. rewrite Ey. destruct (Reqb_spec (dist y xro) 0); [lra|]. rewrite Sy. apply f_equal, pair_eq; [|reflexivity]. destruct K as [K|[_ K]]; [rewrite K; reflexivity|]. replace (fst dy) with 0 by lra. unfold Rdiv. ring.
Qed.
Print Assumptions C104_two_rows_partial.
Example C104_example : same_frame None GLOBAL GLOBAL /\ transform None (0, 0) OBSTACLE GLOBAL = Ret (0, 0) /\
  row_by_row (fun p => reference_direction None (0, 0) p GLOBAL GLOBAL) [(3, 4); (5, 0)] (reference_direction_rows None (0, 0) [(3, 4); (5, 0)] GLOBAL GLOBAL).
Proof.
  split; [left; reflexivity|]. split; [reflexivity|]. apply (C104_two_rows_partial None (0, 0) (0, 0)); [left; reflexivity|reflexivity|injection; lra|injection; lra|].
  left. unfold dist, norm, norm2. f_equal. unv. lra.
Qed.

(** three or more rows: no answer at all *)
Theorem C104_many_rows : forall m xr xs fi fo xro, same_frame m fi fo -> transform m xr OBSTACLE fo = Ret xro -> (3 <= length xs)%nat ->
  reference_direction_rows m xr xs fi fo = Exn ValueErr.
Proof.
  intros m xr xs fi fo xro H T L. unfold reference_direction_rows. rewrite (rows_same _ _ _ _ H), T. cbn [bind]. destruct xs as [|x [|y [|z xs]]]; cbn [length] in L; [lia|lia|lia|reflexivity].
Qed.
Print Assumptions C104_many_rows.

(** the frame changes take the points as columns: exact for two points given that way; a single row is an IndexError *)
Theorem C104_columns : forall m p q fi fo p' q', transform m p fi fo = Ret p' -> transform m q fi fo = Ret q' ->
  transform_rows m [(fst p, fst q); (snd p, snd q)] fi fo = Ret [(fst p', fst q'); (snd p', snd q')].
Proof.
  intros m [px py] [qx qy] fi fo p' q' Hp Hq. destruct m as [m|]; [|cbn in *; injection Hp as <-; injection Hq as <-; reflexivity].
  unfold transform in Hp, Hq. unfold transform_rows. destruct (frame_eqb fi fo); [injection Hp as <-; injection Hq as <-; reflexivity|].
  destruct fi, fo; try discriminate; injection Hp as <-; injection Hq as <-; reflexivity.
Qed.
Print Assumptions C104_columns.
Theorem C104_one_row_converted : forall m xr x fi fo, fi <> fo -> (fi = GLOBAL \/ fi = OBSTACLE) -> (fo = GLOBAL \/ fo = OBSTACLE) ->
  reference_direction_rows (Some m) xr [x] fi fo = Exn IndexErr.
Proof. intros m xr x fi fo N [->| ->] [->| ->]; try congruence; reflexivity. Qed.
Print Assumptions C104_one_row_converted.

(** C104: refuted, by a pair whose answer is not made of unit vectors, and by any three points *)
Theorem C104_rows_refuted : exists xr x y d e, x <> xr /\ y <> xr /\
  reference_direction_rows None xr [x; y] GLOBAL GLOBAL = Ret [d; e] /\ norm d <> 1 /\ norm e <> 1 /\
  ~ row_by_row (fun p => reference_direction None xr p GLOBAL GLOBAL) [x; y] (Ret [d; e]).
Proof.
  assert (N1 : np_norm (psub (3, 4) (0, 0)) = 5) by (unfold np_norm, psub; nR; cbn [fst snd]; replace ((3 - 0) * (3 - 0) + (4 - 0) * (4 - 0)) with (5 * 5) by ring; apply sqrt_square; lra).
  assert (N2 : np_norm (psub (6, 8) (0, 0)) = 10) by (unfold np_norm, psub; nR; cbn [fst snd]; replace ((6 - 0) * (6 - 0) + (8 - 0) * (8 - 0)) with (10 * 10) by ring; apply sqrt_square; lra).
  assert (E : reference_direction_rows None (0, 0) [(3, 4); (6, 8)] GLOBAL GLOBAL = Ret [(3 / 5, 2 / 5); (6 / 5, 4 / 5)]).
  { unfold reference_direction_rows. cbn [transform_rows transform bind map divide_by_norms]. rewrite N1, N2. destruct (Reqb_spec 5 0); [lra|]. destruct (Reqb_spec 10 0); [lra|]. cbn [orb]. unfold psub. nR. cbn [fst snd].
    apply f_equal. apply (f_equal2 cons); [apply pair_eq; lra|]. apply (f_equal2 cons); [apply pair_eq; lra|reflexivity]. }
  assert (Nn : forall v : Pt, fst v * fst v + snd v * snd v <> 1 -> norm v <> 1).
  { intros v H K. apply H. apply (f_equal (fun t => t * t)) in K. unfold norm in K. rewrite sqrt_sqrt in K; [unfold norm2, dot in K; lra|]. unfold norm2, dot. nra. }
  exists (0, 0), (3, 4), (6, 8), (3 / 5, 2 / 5), (6 / 5, 4 / 5). split; [injection; lra|]. split; [injection; lra|]. split; [exact E|].
  split; [apply Nn; cbn [fst snd]; lra|]. split; [apply Nn; cbn [fst snd]; lra|]. rewrite <- E. intros H.
  apply (C104_two_rows_partial None (0, 0) (0, 0)) in H; [|left; reflexivity|reflexivity|injection; lra|injection; lra].
  destruct H as [H|[H _]]; [|cbn in H; lra]. rewrite np_norm_norm in N1, N2. change (norm (psub (3, 4) (0, 0))) with (dist (3, 4) (0, 0)) in N1. change (norm (psub (6, 8) (0, 0))) with (dist (6, 8) (0, 0)) in N2. lra.
Qed.
Print Assumptions C104_rows_refuted.
