(** polygon_kernel_starshaped_hull computed over Q gives its value over R. *)
From Coq Require Import QArith Qreals Reals Lra List Bool Arith ZArith.
From Verif Require Import Num Spec M_Cg M_Motion M_Obstacle M_PolHull S_PolHull L_Geom L_PolHull W_PolWorld.
Import ListNotations.

Definition qp (p : pt Q) : pt R := (Q2R (fst p), Q2R (snd p)).
Lemma t_is_cw (a b c : pt Q) : is_cw (qp a) (qp b) (qp c) = is_cw a b c.
Proof. apply q2r_is_cw. Qed.
Lemma t_is_ccw (a b c : pt Q) : is_ccw (qp a) (qp b) (qp c) = is_ccw a b c.
Proof. apply q2r_is_ccw. Qed.
Definition q2s (s : seg Q) : seg R := (qp (fst s), qp (snd s)).
Definition q2part (p : part Q) : part R := match p with PPoint q => PPoint (qp q) | PLine l => PLine (map qp l) end.
Definition q2geom (g : geom Q) : geom R :=
  match g with
  | GEmpty => GEmpty
  | GLine l => GLine (map qp l)
  | GMultiLine ls => GMultiLine (map (map qp) ls)
  | GCollection ps => GCollection (map q2part ps)
  | GOther l => GOther (map qp l)
  end.
Definition q2cross (g : cross_geom Q) : cross_geom R :=
  match g with XEmpty => XEmpty | XPoint p => XPoint (qp p) | XLine a b => XLine (qp a) (qp b) end.
Record same_world (WQ : pol_world Q) (WR : pol_world R) : Prop := {
  sw_disjoint : forall s, pw_disjoint WR (q2s s) = pw_disjoint WQ s;
  sw_meet : forall s, pw_meet WR (q2s s) = q2geom (pw_meet WQ s);
  sw_cross : forall s s', pw_cross WR (q2s s) (q2s s') = q2cross (pw_cross WQ s s');
  sw_kernel : forall v, pw_in_kernel WR (qp v) = pw_in_kernel WQ v }.

Definition rmap {A B} (f : A -> B) (r : res A) : res B := match r with Ret a => Ret (f a) | Exn e => Exn e end.
Lemma rmap_bind {A B C D} (f : A -> C) (g : B -> D) (r : res A) (h : A -> res B) (h' : C -> res D) :
  (forall a, h' (f a) = rmap g (h a)) -> bind (rmap f r) h' = rmap g (bind r h).
Proof. intros H. destruct r; cbn; auto. Qed.

Lemma t_padd (a b : pt Q) : qp (padd a b) = padd (qp a) (qp b).
Proof. unfold qp, padd. cbn [fst snd]. rewrite !transfer_add. reflexivity. Qed.
Lemma t_psub (a b : pt Q) : qp (psub a b) = psub (qp a) (qp b).
Proof. unfold qp, psub. cbn [fst snd]. rewrite !transfer_sub. reflexivity. Qed.
Lemma t_pscale c (a : pt Q) : qp (pscale c a) = pscale (Q2R c) (qp a).
Proof. unfold qp, pscale. cbn [fst snd]. rewrite !transfer_mul. reflexivity. Qed.
Lemma t_line_seg (a b : pt Q) : q2s (line_seg a b) = line_seg (qp a) (qp b).
Proof. unfold q2s, line_seg. cbn [fst snd]. rewrite !t_padd, !t_pscale, !t_psub. reflexivity. Qed.
Lemma t_ray_seg (a b c : pt Q) : q2s (ray_seg a b c) = ray_seg (qp a) (qp b) (qp c).
Proof. unfold q2s, ray_seg. cbn [fst snd]. rewrite !t_padd, !t_pscale, !t_psub. reflexivity. Qed.
Lemma t_pt_eqb (a b : pt Q) : pt_eqb (qp a) (qp b) = pt_eqb a b.
Proof. unfold pt_eqb, qp. cbn [fst snd]. rewrite <- !transfer_eqb. reflexivity. Qed.
Lemma t_norm2_diff (a b : pt Q) : Q2R (norm2_diff a b) = norm2_diff (qp a) (qp b).
Proof. unfold norm2_diff, nsq, qp. cbn [fst snd]. rewrite !transfer_add, !transfer_mul, !transfer_sub. reflexivity. Qed.

(** lists *)
Lemma t_py_get {A B} (f : A -> B) l i : py_get (map f l) i = rmap f (py_get l i).
Proof.
  unfold py_get. rewrite map_length. destruct (py_index _ i) as [j|]; [|reflexivity]. rewrite nth_error_map. destruct (nth_error l j); reflexivity.
Qed.
Lemma t_py_set {A B} (f : A -> B) l i a : py_set (map f l) i (f a) = rmap (map f) (py_set l i a).
Proof.
  unfold py_set. rewrite map_length. destruct (py_index _ i) as [j|]; [|reflexivity]. cbn [rmap]. f_equal.
  rewrite map_app, firstn_map. cbn [map]. rewrite skipn_map. reflexivity.
Qed.
Lemma t_forallb {A B} (f : A -> B) (p : A -> bool) (q : B -> bool) l : (forall a, q (f a) = p a) -> forallb q (map f l) = forallb p l.
Proof. intros H. induction l as [|a l IH]; cbn; [auto|]. rewrite H, IH. reflexivity. Qed.
Lemma t_filter {A B} (f : A -> B) (p : A -> bool) (q : B -> bool) l : (forall a, q (f a) = p a) -> filter q (map f l) = map f (filter p l).
Proof. intros H. induction l as [|a l IH]; cbn; [auto|]. rewrite H, IH. destruct (p a); reflexivity. Qed.
Lemma t_find {A B} (f : A -> B) (p : A -> bool) (q : B -> bool) l : (forall a, q (f a) = p a) -> find q (map f l) = option_map f (find p l).
Proof. intros H. induction l as [|a l IH]; cbn; [auto|]. rewrite H, IH. destruct (p a); reflexivity. Qed.

Section Transfer.
  Variables (WQ : pol_world Q) (WR : pol_world R).
  Hypothesis SW : same_world WQ WR.
  Variable K : list (pt Q).
  Let KR := map qp K.

  Lemma t_argmax_x l : forall best bi i, argmax_x (Q2R best) bi i (map qp l) = argmax_x best bi i l.
  Proof.
    induction l as [|p l IH]; intros best bi i; cbn [argmax_x map]; [auto|].
    change (fst (qp p)) with (Q2R (fst p)). rewrite <- transfer_ltb. rewrite !IH. reflexivity.
  Qed.
  Lemma t_roll vs : roll_to_max (map qp vs) = map qp (roll_to_max vs).
  Proof.
    destruct vs as [|p r]; [reflexivity|]. unfold roll_to_max. cbn [map]. change (fst (qp p)) with (Q2R (fst p)). rewrite t_argmax_x. cbv zeta.
    rewrite map_app, <- skipn_map, <- firstn_map. reflexivity.
  Qed.
  Lemma t_last {A B} (f : A -> B) l d : last (map f l) (f d) = f (last l d).
  Proof. induction l as [|a l IH]; [auto|]. destruct l; [auto|]. exact IH. Qed.
  Lemma t_removelast {A B} (f : A -> B) l : removelast (map f l) = map f (removelast l).
  Proof. induction l as [|a l IH]; [auto|]. destruct l; [auto|]. cbn [map removelast] in *. rewrite IH. reflexivity. Qed.
  Lemma t_flip vs : flip_roll (map qp vs) = map qp (flip_roll vs).
  Proof.
    unfold flip_roll. rewrite <- map_rev. destruct (rev vs) as [|b t]; [reflexivity|]. change (map qp (b :: t)) with (qp b :: map qp t) at 1.
    cbv iota. rewrite t_last. change (qp b :: map qp t) with (map qp (b :: t)). rewrite t_removelast. reflexivity.
  Qed.
  Lemma t_arrange vs : arrange (map qp vs) = rmap (map qp) (arrange vs).
  Proof.
    unfold arrange. cbv zeta. rewrite t_roll, !t_py_get. apply rmap_bind. intros a. apply rmap_bind. intros b. apply rmap_bind. intros c.
    rewrite t_is_cw, t_flip. destruct (is_cw a b c); reflexivity.
  Qed.
  Lemma t_visible v : visible WR KR (qp v) = visible WQ K v.
  Proof. unfold visible, KR. apply t_forallb. intros k. rewrite <- t_ray_seg. apply (sw_disjoint _ _ SW). Qed.
  Lemma t_adjust v e2 s e1 ks : forall sv adj,
    adjust_loop WR (qp v) (qp e2) (q2s s) e1 (map qp ks) (map qp sv) adj =
    rmap (fun p => (map qp (fst p), snd p)) (adjust_loop WQ v e2 s e1 ks sv adj).
  Proof.
    induction ks as [|k ks IH]; intros sv adj; cbn [adjust_loop map]; [reflexivity|].
    rewrite <- t_line_seg, (sw_cross _ _ SW). destruct (pw_cross WQ (line_seg k v) s) as [|c|]; cbn [q2cross]; auto.
    rewrite t_py_get. apply rmap_bind. intros cur. rewrite <- !t_norm2_diff, <- transfer_ltb. destruct (nltb _ _); auto.
    rewrite t_py_set. apply rmap_bind. intros sv'. apply IH.
  Qed.
  Lemma t_intersection_points g : intersection_points (q2geom g) = map qp (intersection_points g).
  Proof.
    destruct g; cbn [q2geom intersection_points]; auto.
    - rewrite concat_map. reflexivity.
    - induction gs as [|p gs IH]; [reflexivity|]. cbn [map flat_map]. rewrite IH, map_app. destruct p; reflexivity.
  Qed.
  Definition q2aug (p : list (pt Q) * Z * Z) : list (pt R) * Z * Z := let '(sv, a, b) := p in (map qp sv, a, b).
  Lemma t_augment sv u v vp : augment (map qp sv) (qp u) (qp v) (qp vp) = rmap q2aug (augment sv u v vp).
  Proof.
    unfold augment. cbv zeta. rewrite t_is_ccw. change [qp u] with (map qp [u]). rewrite <- map_app, map_length. destruct (is_ccw u v vp); [|reflexivity].
    rewrite !t_py_get. apply rmap_bind. intros a. apply rmap_bind. intros b. rewrite t_py_set. apply rmap_bind. intros c.
    rewrite t_py_set. apply rmap_bind. intros d. reflexivity.
  Qed.
  Lemma t_shift vb s ks : forall u, shift_u WR (qp vb) (q2s s) (map qp ks) (qp u) = rmap qp (shift_u WQ vb s ks u).
  Proof.
    induction ks as [|k ks IH]; intros u; cbn [shift_u map]; [reflexivity|]. rewrite <- t_line_seg, (sw_cross _ _ SW).
    destruct (pw_cross WQ _ s); cbn [q2cross]; auto.
  Qed.
  Definition q2as (s : aug_state Q) : aug_state R := AS (map qp (a_sv s)) (a_e1 s) (a_e2 s) (a_inc s).
  Lemma t_augment_loop v vp vb ks : forall i s,
    augment_loop WR KR (qp v) (qp vp) (qp vb) i (map qp ks) (q2as s) = rmap q2as (augment_loop WQ K v vp vb i ks s).
  Proof.
    induction ks as [|k ks IH]; intros i s; cbn [augment_loop map]; [reflexivity|]. cbv zeta.
    assert (Fl : filter (fun kp => negb (pt_eqb kp (qp k))) KR = map qp (filter (fun kp => negb (pt_eqb kp k)) K)).
    { unfold KR. apply t_filter. intros a. rewrite t_pt_eqb. reflexivity. }
    rewrite Fl, <- t_line_seg, (sw_meet _ _ SW).
    assert (Ra : forall u l, forallb (fun kp => pw_disjoint WR (ray_seg (qp u) kp (qp v))) (map qp l) = forallb (fun kp => pw_disjoint WQ (ray_seg u kp v)) l).
    { intros u l. apply t_forallb. intros a. rewrite <- t_ray_seg. apply (sw_disjoint _ _ SW). }
    assert (Fd : forall l, find (fun uc => pw_disjoint WR (line_seg uc (qp v))) (map qp l) = option_map qp (find (fun uc => pw_disjoint WQ (line_seg uc v)) l)).
    { intros l. apply t_find. intros a. rewrite <- t_line_seg. apply (sw_disjoint _ _ SW). }
    assert (Go : forall g, match find (fun uc => pw_disjoint WR (line_seg uc (qp v))) (intersection_points (q2geom g)) with
        | None => augment_loop WR KR (qp v) (qp vp) (qp vb) (S i) (map qp ks) (q2as s)
        | Some u => if forallb (fun kp => pw_disjoint WR (ray_seg u kp (qp v))) (map qp (filter (fun kp => negb (pt_eqb kp k)) K))
            then bind (shift_u WR (qp vb) (line_seg u (qp v)) (map qp (filter (fun kp => negb (pt_eqb kp k)) K)) u) (fun u' =>
              bind (augment (a_sv (q2as s)) u' (qp v) (qp vp)) (fun '(sv, e1, e2) => augment_loop WR KR (qp v) (qp vp) (qp vb) (S i) (map qp ks) (AS sv e1 e2 (a_inc (q2as s)))))
            else augment_loop WR KR (qp v) (qp vp) (qp vb) (S i) (map qp ks) (q2as s) end
      = rmap q2as (match find (fun uc => pw_disjoint WQ (line_seg uc v)) (intersection_points g) with
        | None => augment_loop WQ K v vp vb (S i) ks s
        | Some u => if forallb (fun kp => pw_disjoint WQ (ray_seg u kp v)) (filter (fun kp => negb (pt_eqb kp k)) K)
            then bind (shift_u WQ vb (line_seg u v) (filter (fun kp => negb (pt_eqb kp k)) K) u) (fun u' =>
              bind (augment (a_sv s) u' v vp) (fun '(sv, e1, e2) => augment_loop WQ K v vp vb (S i) ks (AS sv e1 e2 (a_inc s))))
            else augment_loop WQ K v vp vb (S i) ks s end)).
    { intros g. rewrite t_intersection_points, Fd. destruct (find _ (intersection_points g)) as [u|]; cbn [option_map]; [|apply IH].
      rewrite Ra. destruct (forallb _ _); [|apply IH]. rewrite <- t_line_seg, t_shift. apply rmap_bind. intros u'.
      cbn [q2as a_sv a_inc]. rewrite t_augment. apply rmap_bind. intros [[sv e1] e2]. cbn [q2aug]. apply (IH (S i) (AS sv e1 e2 (a_inc s))). }
    destruct (pw_meet WQ (line_seg k v)) as [|c|ls|gs|ps].
    - cbn [q2geom]. rewrite Ra. cbn [q2as a_sv a_inc]. destruct (_ && _); [|apply IH]. rewrite t_augment. apply rmap_bind. intros [[sv e1] e2].
      cbn [q2aug]. apply (IH (S i) (AS sv e1 e2 (firstn i (a_inc s) ++ true :: skipn (S i) (a_inc s)))).
    - apply (Go (GLine c)).
    - apply (Go (GMultiLine ls)).
    - apply (Go (GCollection gs)).
    - apply (Go (GOther ps)).
  Qed.
  Lemma t_add_vertex v sv : add_vertex WR KR (qp v) (map qp sv) = map qp (add_vertex WQ K v sv).
  Proof.
    unfold add_vertex. unfold KR. rewrite map_length, (sw_kernel _ _ SW). destruct (_ || _); auto. rewrite map_app. reflexivity.
  Qed.
  Definition q2st (st : aug_state Q * pt Q) : aug_state R * pt R := (q2as (fst st), qp (snd st)).
  Lemma t_vertex_step v vp st : vertex_step WR KR (qp v) (qp vp) (q2st st) = rmap q2st (vertex_step WQ K v vp st).
  Proof.
    destruct st as [s vb]. unfold vertex_step, q2st. cbn [fst snd]. rewrite t_visible. destruct (visible WQ K v); [|reflexivity]. cbv zeta.
    cbn [q2as a_sv a_e1 a_e2 a_inc]. rewrite t_add_vertex.
    set (sv1 := add_vertex WQ K v (a_sv s)). clearbody sv1.
    match goal with |- bind ?a ?f = rmap _ (bind ?b ?g) => assert (E : a = rmap (fun p => (map qp (fst p), snd p)) b) end.
    { destruct sv1 as [|p l]; [reflexivity|]. change (map qp (p :: l)) with (qp p :: map qp l) at 1. cbv iota.
      rewrite !t_py_get. apply rmap_bind. intros e1. apply rmap_bind. intros e2. rewrite <- t_line_seg. unfold KR. apply t_adjust. }
    rewrite E. apply rmap_bind. intros [sv2 adj]. cbn [fst snd].
    match goal with |- bind ?a ?f = rmap _ (bind ?b ?g) => assert (E2 : a = rmap q2as b) end.
    { destruct adj; [reflexivity|]. unfold KR. apply (t_augment_loop v vp vb K 0 (AS sv2 (a_e1 s) (a_e2 s) (a_inc s))). }
    rewrite E2. apply rmap_bind. intros s3. cbn [q2as a_sv]. rewrite t_py_get. apply rmap_bind. intros b. reflexivity.
  Qed.
  Lemma t_vertex_loop vs : forall vp st, vertex_loop WR KR (qp vp) (map qp vs) (q2st st) = rmap q2st (vertex_loop WQ K vp vs st).
  Proof.
    induction vs as [|v vs IH]; intros vp st; cbn [vertex_loop map]; [reflexivity|]. rewrite t_vertex_step. apply rmap_bind. intros a. apply IH.
  Qed.
  Lemma t_insert j v vp ks : forall i sv inc, insert_kernel j (qp v) (qp vp) i (map qp ks) (map qp sv) inc =
    (map qp (fst (insert_kernel j v vp i ks sv inc)), snd (insert_kernel j v vp i ks sv inc)).
  Proof.
    induction ks as [|k ks IH]; intros i sv inc; cbn [insert_kernel map]; [reflexivity|]. rewrite t_is_cw. destruct (_ && _); [|apply IH].
    rewrite firstn_map, skipn_map. change (qp k :: map qp (skipn j sv)) with (map qp (k :: skipn j sv)). rewrite <- map_app. apply IH.
  Qed.
  Lemma t_final c : forall j sv inc, final_loop KR c j (map qp sv) inc = rmap (map qp) (final_loop K c j sv inc).
  Proof.
    induction c as [|c IH]; intros j sv inc; cbn [final_loop]; [reflexivity|]. rewrite !t_py_get. apply rmap_bind. intros v. apply rmap_bind. intros vp.
    unfold KR. rewrite t_insert. destruct (insert_kernel j v vp 0 K sv inc) as [sv' inc']. cbn [fst snd]. apply IH.
  Qed.
  Lemma t_hull_from k0 vs : hull_from WR KR (qp k0) (map qp vs) = rmap (map qp) (hull_from WQ K k0 vs).
  Proof.
    unfold hull_from. rewrite t_arrange. apply rmap_bind. intros l. rewrite t_last.
    replace (map (fun _ : pt R => false) KR) with (map (fun _ : pt Q => false) K) by (unfold KR; rewrite map_map; reflexivity).
    pose proof (t_vertex_loop l (last l k0) (AS [] 0 0 (map (fun _ => false) K), k0)) as TL.
    unfold q2st at 1, q2as in TL. cbn [fst snd q2as a_sv a_e1 a_e2 a_inc map] in TL. rewrite TL. apply rmap_bind. intros [s vb]. cbn [q2st fst snd q2as a_sv a_inc].
    rewrite map_length, t_final. apply rmap_bind. intros sv. destruct sv as [|a [|b [|c r]]]; reflexivity.
  Qed.
End Transfer.
Theorem t_hull WQ WR K vs : same_world WQ WR ->
  polygon_kernel_starshaped_hull WR (map qp K) (map qp vs) = rmap (map qp) (polygon_kernel_starshaped_hull WQ K vs).
Proof. intros SW. unfold polygon_kernel_starshaped_hull. destruct K as [|k0 K]; [reflexivity|]. apply t_hull_from; auto. Qed.

(** *** the executable world over Q and over R *)
Definition qh (h : half Q) : half R := let '(a, b, c) := h in (Q2R a, Q2R b, Q2R c).
Definition qi (i : Q * Q) : R * R := (Q2R (fst i), Q2R (snd i)).
Lemma t_hval h (p : pt Q) : Q2R (hval h p) = hval (qh h) (qp p).
Proof. destruct h as [[a b] c]. unfold hval, qh, qp. cbn [fst snd]. rewrite !transfer_add, !transfer_mul. reflexivity. Qed.
Lemma t_left_of (a b : pt Q) : qh (left_of a b) = left_of (qp a) (qp b).
Proof. unfold qh, left_of, qp. cbn [fst snd]. rewrite !transfer_sub, !transfer_mul, !transfer_sub. reflexivity. Qed.
Lemma t_ahead_of (a b : pt Q) : qh (ahead_of a b) = ahead_of (qp a) (qp b).
Proof. unfold qh, ahead_of, qp. cbn [fst snd]. rewrite !transfer_opp, !transfer_add, !transfer_mul, !transfer_sub. reflexivity. Qed.
Lemma t_seg_halves (a b : pt Q) : map qh (seg_halves a b) = seg_halves (qp a) (qp b).
Proof.
  unfold seg_halves. rewrite t_pt_eqb. destruct (pt_eqb a b).
  - cbn [map qh]. rewrite !transfer_opp. reflexivity.
  - cbn [map]. rewrite !t_left_of, !t_ahead_of. reflexivity.
Qed.
Lemma t_nmin x y : Q2R (nmin x y) = nmin (Q2R x) (Q2R y).
Proof. unfold nmin. rewrite transfer_leb. destruct (nleb _ _); reflexivity. Qed.
Lemma t_nmax x y : Q2R (nmax x y) = nmax (Q2R x) (Q2R y).
Proof. unfold nmax. rewrite transfer_leb. destruct (nleb _ _); reflexivity. Qed.
Lemma t_clip1 i f : clip1 (option_map qi i) (qi f) = option_map qi (clip1 i f).
Proof.
  destruct i as [[lo hi]|]; [|reflexivity]. cbn [option_map clip1 qi fst snd].
  change (@n0 R NumR) with (Q2R (@n0 Q NumQ)). rewrite <- !transfer_leb.
  destruct (nleb n0 (fst f)) eqn:A, (nleb n0 (snd f)) eqn:B; try reflexivity.
  - assert (D : Q2R (fst f / (fst f - snd f))%num = (Q2R (fst f) / (Q2R (fst f) - Q2R (snd f)))%R).
    { rewrite transfer_div, transfer_sub; auto. intros E. apply Qeq_eqR in E. rewrite transfer_sub, Q2R_0 in E.
      rewrite transfer_leb in A, B. cbn [nleb NumR] in A, B. apply Rleb_true in A. apply Rleb_false in B. lra. }
    unfold qi. cbn [option_map fst snd]. rewrite t_nmin, D. reflexivity.
  - assert (D : Q2R (fst f / (fst f - snd f))%num = (Q2R (fst f) / (Q2R (fst f) - Q2R (snd f)))%R).
    { rewrite transfer_div, transfer_sub; auto. intros E. apply Qeq_eqR in E. rewrite transfer_sub, Q2R_0 in E.
      rewrite transfer_leb in A, B. cbn [nleb NumR] in A, B. apply Rleb_false in A. apply Rleb_true in B. lra. }
    unfold qi. cbn [option_map fst snd]. rewrite t_nmax, D. reflexivity.
Qed.
Lemma t_clip (s : seg Q) hs : clip (q2s s) (map qh hs) = option_map qi (clip s hs).
Proof.
  unfold clip. rewrite map_map.
  assert (F : forall i, fold_left clip1 (map (fun h => (hval (qh h) (fst (q2s s)), hval (qh h) (snd (q2s s)))) hs) (option_map qi i) =
    option_map qi (fold_left clip1 (map (fun h => (hval h (fst s), hval h (snd s))) hs) i)).
  { induction hs as [|h hs IH]; intros i; cbn [map fold_left]; [reflexivity|]. rewrite <- IH. f_equal. rewrite <- t_clip1. f_equal.
    unfold qi. cbn [fst snd q2s]. rewrite !t_hval. reflexivity. }
  specialize (F (Some (n0, n1))). cbn [option_map] in F. change (qi (n0, n1)) with (@n0 R NumR, @n1 R NumR) in F. rewrite F. clear F.
  match goal with |- context [option_map qi ?z] => destruct z as [[lo hi]|]; [|reflexivity] end. cbn [option_map qi fst snd]. rewrite <- transfer_leb.
  destruct (nleb lo hi); reflexivity.
Qed.
Lemma t_ins l : forall i, ins (qi i) (map qi l) = map qi (ins i l).
Proof.
  induction l as [|j l IH]; intros i; cbn [ins map]; [reflexivity|]. cbn [qi fst snd]. rewrite <- !transfer_ltb.
  destruct (nltb (snd i) (fst j)); [reflexivity|]. destruct (nltb (snd j) (fst i)); [rewrite IH; reflexivity|].
  rewrite <- IH. unfold qi at 2. cbn [fst snd]. rewrite t_nmin, t_nmax. reflexivity.
Qed.
Lemma t_at (s : seg Q) t : at_ (q2s s) (Q2R t) = qp (at_ s t).
Proof. unfold at_. rewrite t_padd, t_pscale, t_psub. reflexivity. Qed.
Lemma t_spans pcs (s : seg Q) : spans (map (map qh) pcs) (q2s s) = map qi (spans pcs s).
Proof.
  induction pcs as [|pc pcs IH]; cbn [spans map fold_right]; [reflexivity|]. fold (spans pcs s). fold (spans (map (map qh) pcs) (q2s s)).
  rewrite t_clip. destruct (clip s pc) as [i|]; cbn [option_map]; [|exact IH]. rewrite IH. apply t_ins.
Qed.
Lemma t_span_part (s : seg Q) i : span_part (q2s s) (qi i) = q2part (span_part s i).
Proof.
  unfold span_part. cbn [q2s qi fst snd]. rewrite t_pt_eqb, <- transfer_eqb. destruct (_ || _); cbn [q2part map]; fold (q2s s); rewrite !t_at; reflexivity.
Qed.
Lemma t_classify ps : classify (map q2part ps) = q2geom (classify ps).
Proof.
  assert (L1 : forallb is_line (map q2part ps) = forallb is_line ps) by (apply t_forallb; intros []; reflexivity).
  assert (L2 : forallb (fun p => negb (is_line p)) (map q2part ps) = forallb (fun p => negb (is_line p)) ps) by (apply t_forallb; intros []; reflexivity).
  assert (C : map coords_of (map q2part ps) = map (map qp) (map coords_of ps)) by (rewrite !map_map; apply map_ext; intros []; reflexivity).
  assert (Gen : (if forallb is_line (map q2part ps) then GMultiLine (map coords_of (map q2part ps))
     else if forallb (fun p => negb (is_line p)) (map q2part ps) then GOther (concat (map coords_of (map q2part ps))) else GCollection (map q2part ps)) =
     q2geom (if forallb is_line ps then GMultiLine (map coords_of ps)
     else if forallb (fun p => negb (is_line p)) ps then GOther (concat (map coords_of ps)) else GCollection ps)).
  { rewrite L1, L2, C. destruct (forallb is_line ps); [reflexivity|]. destruct (forallb _ ps); cbn [q2geom]; [|reflexivity]. rewrite concat_map. reflexivity. }
  destruct ps as [|p [|q r]]; [reflexivity| |].
  - destruct p; [exact Gen|reflexivity].
  - destruct p; exact Gen.
Qed.
Theorem pieces_same pcs K : same_world (pieces_world pcs K) (pieces_world (map (map qh) pcs) (map qp K)).
Proof.
  constructor; cbn [pw_disjoint pw_meet pw_cross pw_in_kernel pieces_world].
  - intros s. rewrite t_spans. destruct (spans pcs s); reflexivity.
  - intros s. rewrite t_spans, <- t_classify, !map_map. f_equal. apply map_ext. intros i. apply t_span_part.
  - intros s s'. cbn [q2s fst snd]. rewrite <- t_seg_halves. fold (q2s s). rewrite t_clip. destruct (clip s _) as [[lo hi]|]; [|reflexivity].
    cbn [option_map qi fst snd]. rewrite t_pt_eqb, <- transfer_eqb. destruct (_ || _); cbn [q2cross]; rewrite !t_at; reflexivity.
  - intros v. destruct K as [|a [|b [|c [|d K]]]]; try reflexivity. cbn [map strictly_inside]. unfold positive.
    rewrite <- !t_left_of, <- !t_hval. change (@n0 R NumR) with (Q2R (@n0 Q NumQ)). rewrite <- !transfer_ltb. reflexivity.
Qed.
(** a run over Q decides the run over R *)
Corollary run_on_Q pcs K vs : polygon_kernel_starshaped_hull (pieces_world (map (map qh) pcs) (map qp K)) (map qp K) (map qp vs) =
  rmap (map qp) (polygon_kernel_starshaped_hull (pieces_world pcs K) K vs).
Proof. apply t_hull, pieces_same. Qed.
