(** A map of the points that respects the tests is respected by the kernel scan. *)
From Coq Require Import Reals List Bool Arith ZArith Lia.
From Verif Require Import Num M_Cg M_Obstacle M_PolHull M_Kernel W_PolTransfer.
Import ListNotations.

Section Sim.
  Context {P P' : Type} (f : P -> P') (o : kops P) (o' : kops P').

  Record sim : Prop := {
    sim_cw : forall a b c, k_cw o' (f a) (f b) (f c) = k_cw o a b c;
    sim_ccw : forall a b c, k_ccw o' (f a) (f b) (f c) = k_ccw o a b c;
    sim_col : forall a b c, k_col o' (f a) (f b) (f c) = k_col o a b c;
    sim_same : forall a b c d e g, k_same o' (f a) (f b) (f c) (f d) (f e) (f g) = k_same o a b c d e g;
    sim_between : forall a b c, k_between o' (f a) (f b) (f c) = k_between o a b c;
    sim_gi : forall a b c d, k_gi o' (f a) (f b) (f c) (f d) = option_map f (k_gi o a b c d);
    sim_far : forall a b, k_far o' (f a) (f b) = f (k_far o a b);
    sim_eq : forall a b, k_eq o' (f a) (f b) = k_eq o a b }.
  (* the constructions of far points, for one pair of points *)
  Record sim_edge (a b : P) : Prop := {
    sim_away : k_away o' (f a) (f b) = option_map f (k_away o a b);
    sim_ahead : k_ahead o' (f a) (f b) = option_map f (k_ahead o a b);
    sim_before : k_before o' (f a) (f b) = option_map f (k_before o a b) }.

  Hypothesis H : sim.

  Definition mst (s : kst) : kst := KSt (map f (xk s)) (f1 s) (l1 s) (bounded s) (option_map (map f) (kdelta s)).
  Definition mw (w : option (P * Z)) : option (P' * Z) := option_map (fun x => (f (fst x), snd x)) w.

  Lemma sim_kget d l i : kget (f d) (map f l) i = f (kget d l i).
  Proof. unfold kget, zn. rewrite map_length. apply map_nth. Qed.
  Lemma sim_zlen l : zlen (map f l) = zlen l.
  Proof. unfold zlen. now rewrite map_length. Qed.
  Lemma sim_slice lo hi l : py_slice lo hi (map f l) = map f (py_slice lo hi l).
  Proof. unfold py_slice. rewrite map_length, skipn_map, firstn_map. reflexivity. Qed.
  Lemma find_ext {A} (p q : A -> bool) l : (forall a, p a = q a) -> find p l = find q l.
  Proof. intros E. induction l as [|a l IH]; cbn; [auto|]. rewrite E, IH. reflexivity. Qed.

  Lemma sim_drop v d is : forall ids, drop_inline o' (map f v) (f d) ids is = drop_inline o v d ids is.
  Proof.
    induction is as [|i r IH]; intros ids; cbn [drop_inline]; [auto|].
    rewrite !map_nth, (sim_col H). apply IH.
  Qed.
  Lemma sim_keep v d ids : keep_indices (map f v) (f d) ids = map f (keep_indices v d ids).
  Proof.
    unfold keep_indices. rewrite map_length, map_map. apply map_ext. intros i. apply map_nth.
  Qed.
  Lemma removelast_map {A B} (g : A -> B) l : removelast (map g l) = map g (removelast l).
  Proof.
    induction l as [|a l IH]; cbn [map removelast]; [auto|]. destruct l as [|b l]; [auto|].
    cbn [map] in IH |- *. f_equal. exact IH.
  Qed.
  Lemma sim_remove v : remove_inline o' (map f v) = rmap (map f) (remove_inline o v).
  Proof.
    destruct v as [|d [|e r]]; try reflexivity. unfold remove_inline. cbn [map].
    change (f d :: f e :: map f r) with (map f (d :: e :: r)). set (v := d :: e :: r).
    rewrite map_length, sim_drop, sim_keep. set (w := keep_indices _ _ _).
    rewrite !t_py_get. destruct (py_get w (-2)) as [a|x]; [|reflexivity]. cbn [rmap bind].
    destruct (py_get w (-1)) as [b|x]; [|reflexivity]. cbn [rmap bind].
    destruct (py_get w 0) as [c|x]; [|reflexivity]. cbn [rmap bind].
    rewrite (sim_col H). destruct (k_col o a b c); cbn [rmap]; [rewrite removelast_map|]; reflexivity.
  Qed.
  Lemma sim_reflex v d i : is_reflex o' (map f v) (f d) i = is_reflex o v d i.
  Proof. unfold is_reflex. rewrite !sim_kget, map_nth. apply (sim_cw H). Qed.
  Lemma sim_start v : start_reflex o' (map f v) = map f (start_reflex o v).
  Proof.
    destruct v as [|d r]; [reflexivity|]. unfold start_reflex. cbn [map].
    change (f d :: map f r) with (map f (d :: r)). set (v := d :: r).
    rewrite map_length, (find_ext _ (is_reflex o v d)) by (intros; apply sim_reflex).
    destruct (find _ _) as [i|]; [|reflexivity]. now rewrite map_app, skipn_map, firstn_map.
  Qed.

  Lemma sim_scan_F d q l x : scan_F o' (f d) (f q) (map f l) x = scan_F o d q l x.
  Proof.
    unfold scan_F. rewrite map_length, sim_zlen.
    rewrite (find_ext _ (fun off => let t := ((x + Z.of_nat off) mod zlen l)%Z in
                           k_cw o q (k_far o q (kget d l t)) (kget d l (t + 1)))); [reflexivity|].
    intros off. cbn zeta. rewrite !sim_kget, (sim_far H). apply (sim_cw H).
  Qed.
  Lemma sim_scan_L d q l x y : scan_L o' (f d) (f q) (map f l) x y = scan_L o d q l x y.
  Proof.
    unfold scan_L. rewrite map_length, sim_zlen.
    rewrite (find_ext _ (fun off => let t := ((x + Z.of_nat off) mod zlen l)%Z in
                           k_ccw o q (k_far o q (kget d l t)) (kget d l (t + 1)))); [reflexivity|].
    intros off. cbn zeta. rewrite !sim_kget, (sim_far H). apply (sim_ccw H).
  Qed.
  Ltac gi1 := match goal with |- context [k_gi o ?a ?b ?c ?d] => destruct (k_gi o a b c d); cbn [option_map] end.
  Lemma sim_scan_w1 d a b l bd x y offs :
    scan_w1 o' (f d) (f a) (f b) (map f l) bd x y offs = mw (scan_w1 o d a b l bd x y offs).
  Proof.
    induction offs as [|off r IH]; cbn [scan_w1]; [reflexivity|]. rewrite sim_zlen, !sim_kget, (sim_gi H).
    destruct (negb bd && _); [reflexivity|]. gi1; [reflexivity|]. destruct (Z.eqb _ _); [reflexivity|exact IH].
  Qed.
  Lemma sim_scan_edges d a b l is : scan_edges o' (f d) (f a) (f b) (map f l) is = mw (scan_edges o d a b l is).
  Proof.
    induction is as [|off r IH]; cbn [scan_edges]; [reflexivity|]. rewrite !sim_kget, (sim_gi H).
    gi1; [reflexivity|exact IH].
  Qed.
  Lemma sim_idcs l bd x : idcs_cw (map f l) bd x = idcs_cw l bd x.
  Proof. unfold idcs_cw. now rewrite map_length, sim_zlen. Qed.
  Lemma sim_scan_back d a b l r : scan_back o' (f d) (f a) (f b) (map f l) r = mw (scan_back o d a b l r).
  Proof.
    induction r as [|r IH]; cbn [scan_back]; [reflexivity|]. rewrite !map_nth, (sim_gi H). gi1; [reflexivity|exact IH].
  Qed.
  Lemma sim_scan_back_w1 d a b l x y offs :
    scan_back_w1 o' (f d) (f a) (f b) (map f l) x y offs = mw (scan_back_w1 o d a b l x y offs).
  Proof.
    induction offs as [|off r IH]; cbn [scan_back_w1]; [reflexivity|]. rewrite sim_zlen, !sim_kget, (sim_gi H).
    destruct (Z.eqb _ _); [reflexivity|]. gi1; [reflexivity|exact IH].
  Qed.
  Lemma sim_scan_w2 d a b l bd x offs : scan_w2 o' (f d) (f a) (f b) (map f l) bd x offs = mw (scan_w2 o d a b l bd x offs).
  Proof.
    induction offs as [|off r IH]; cbn [scan_w2]; [reflexivity|]. rewrite sim_zlen, !sim_kget, (sim_gi H).
    destruct (negb bd && _); [reflexivity|]. gi1; [reflexivity|exact IH].
  Qed.
  Lemma sim_scan_start d a b l rs : scan_start o' (f d) (f a) (f b) (map f l) rs = mw (scan_start o d a b l rs).
  Proof.
    induction rs as [|off r IH]; cbn [scan_start]; [reflexivity|]. rewrite !sim_kget, (sim_gi H).
    gi1; [reflexivity|exact IH].
  Qed.

  Lemma sim_close d sp vj w1 t s :
    close_reflex o' (f d) (f sp) (f vj) (f w1) t (mst s) = rmap (fun x => (f (fst x), mst (snd x))) (close_reflex o d sp vj w1 t s).
  Proof.
    destruct s as [l a b bd dl]. unfold close_reflex, mst. cbn [xk f1 l1 bounded kdelta].
    rewrite !sim_kget, map_length, sim_scan_back, (sim_gi H).
    assert (B : forall w2 delta,
      Ret (f w2, KSt (map f delta ++ [f w2; f w1]) (zlen (map f delta)) (Z.min (b - t) (zlen (map f delta ++ [f w2; f w1]) - 1)) true
             (Some (map f delta))) =
      rmap (fun x : P * kst => (f (fst x), mst (snd x)))
        (Ret (w2, KSt (delta ++ [w2; w1]) (zlen delta) (Z.min (b - t) (zlen (delta ++ [w2; w1]) - 1)) true (Some delta)))).
    { intros w2 delta. cbn [rmap fst snd]. unfold mst. cbn [xk f1 l1 bounded kdelta option_map].
      change [f w2; f w1] with (map f [w2; w1]). rewrite <- map_app, !sim_zlen. reflexivity. }
    unfold mst in B. cbn [xk f1 l1 bounded kdelta] in B.
    destruct bd.
    - gi1.
      + destruct dl as [delta|]; cbn [option_map]; [apply B|reflexivity].
      + destruct (scan_back o d sp vj l (length l - 1)) as [[w2 r]|]; cbn [mw option_map fst snd].
        * rewrite sim_slice. apply B.
        * destruct dl; reflexivity.
    - destruct (scan_back o d sp vj l (length l - 1)) as [[w2 r]|]; cbn [mw option_map fst snd].
      + rewrite sim_slice. apply B.
      + destruct dl; reflexivity.
  Qed.
  Lemma sim_cut_reflex d sp vj s :
    cut_reflex o' (f d) (f sp) (f vj) (mst s) = rmap (option_map mst) (cut_reflex o d sp vj s).
  Proof.
    unfold cut_reflex. cbn [mst xk f1 l1 bounded kdelta]. rewrite map_length, sim_scan_w1, sim_idcs, sim_scan_edges.
    destruct (scan_w1 _ _ _ _ _ _ _ _ _) as [[w1 t]|]; [|reflexivity]. cbn [mw option_map fst snd].
    destruct (scan_edges _ _ _ _ _ _) as [[w2 e]|]; cbn [mw option_map fst snd].
    - rewrite !sim_slice, !sim_zlen. change [f w2; f w1] with (map f [w2; w1]).
      destruct (bounded s && _); cbn [rmap option_map mst]; unfold mst; cbn [xk f1 l1 bounded kdelta]; rewrite ?map_app, ?sim_zlen; reflexivity.
    - rewrite !sim_kget, (sim_same H). destruct (k_same _ _ _ _ _ _ _).
      + rewrite sim_slice, sim_zlen. cbn [rmap option_map]. unfold mst. cbn [xk f1 l1 bounded kdelta app map]. reflexivity.
      + rewrite (sim_close d sp vj w1 t s). destruct (close_reflex _ _ _ _ _ _ _) as [[w s']|]; reflexivity.
  Qed.
  Lemma sim_reflex_round d vi vj s : sim_edge vi vj ->
    reflex_round o' (f d) (f vi) (f vj) (mst s) = rmap (option_map mst) (reflex_round o d vi vj s).
  Proof.
    intros E. unfold reflex_round. cbn [mst xk f1 l1 bounded kdelta]. rewrite !t_py_get.
    destruct (py_get (xk s) (l1 s)) as [a|x]; [|reflexivity]. cbn [rmap bind].
    destruct (py_get (xk s) (f1 s)) as [b|x]; [|reflexivity]. cbn [rmap bind].
    rewrite (sim_before _ _ E). destruct (k_before o vi vj) as [sp|]; [|reflexivity]. cbn [option_map].
    rewrite (sim_ccw H), sim_scan_F. destruct (k_ccw o sp vj b).
    - cbn [bind rmap option_map xk f1 l1 bounded kdelta]. rewrite sim_scan_L. reflexivity.
    - rewrite (sim_cut_reflex d sp vj s). destruct (cut_reflex _ _ _ _ _) as [[s'|]|x]; try reflexivity.
      cbn [bind rmap option_map]. cbn [mst xk f1 l1 bounded kdelta]. rewrite sim_scan_L. reflexivity.
  Qed.
  Definition mcut (c : cut_res) : cut_res :=
    let '(s, w1, i1, ow2) := c in (mst s, f w1, i1, mw ow2).
  Lemma sim_cut_convex d vi ep s :
    cut_convex o' (f d) (f vi) (f ep) (mst s) = rmap (option_map mcut) (cut_convex o d vi ep s).
  Proof.
    unfold cut_convex. cbn [mst xk f1 l1 bounded kdelta]. rewrite map_length, sim_scan_back_w1, sim_scan_w2.
    destruct (scan_back_w1 _ _ _ _ _ _ _ _) as [[w1 t]|]; [|reflexivity]. cbn [mw option_map fst snd].
    destruct (scan_w2 _ _ _ _ _ _ _ _) as [[w2 e]|]; cbn [mw option_map fst snd].
    - rewrite !sim_slice, !sim_zlen. change [f w1; f w2] with (map f [w1; w2]).
      destruct (bounded s && _); cbn [rmap option_map mcut mw fst snd app]; unfold mst; cbn [xk f1 l1 bounded kdelta map app];
        rewrite ?map_app, ?sim_zlen; cbn [map]; reflexivity.
    - rewrite !sim_kget, (sim_same H). destruct (negb (bounded s) && _).
      + rewrite sim_slice, sim_zlen. cbn [rmap option_map mcut]. unfold mst. cbn [xk f1 l1 bounded kdelta mw option_map].
        change [f w1; f ep] with (map f [w1; ep]). rewrite <- map_app, sim_zlen. reflexivity.
      + rewrite sim_scan_start. destruct (scan_start _ _ _ _ _ _) as [[w2 r]|]; cbn [mw option_map fst snd].
        * rewrite sim_slice, sim_zlen. cbn [rmap option_map mcut]. unfold mst. cbn [xk f1 l1 bounded kdelta mw option_map fst snd].
          change [f w1; f w2] with (map f [w1; w2]). rewrite <- map_app, sim_zlen. reflexivity.
        * destruct (kdelta s); reflexivity.
  Qed.
  Lemma sim_after d vi vj c : after_cut_convex o' (f d) (f vi) (f vj) (mcut c) = mst (after_cut_convex o d vi vj c).
  Proof.
    destruct c as [[[s w1] i1] ow2]. unfold after_cut_convex, mcut. cbn [mst xk f1 l1 bounded kdelta].
    rewrite (sim_between H), sim_scan_F, sim_zlen. destruct ow2 as [[w2 i2]|]; cbn [mw option_map fst snd].
    - rewrite (sim_between H), sim_scan_L. reflexivity.
    - reflexivity.
  Qed.
  Lemma sim_convex_round d vi vj s : sim_edge vi vj ->
    convex_round o' (f d) (f vi) (f vj) (mst s) = rmap (option_map mst) (convex_round o d vi vj s).
  Proof.
    intros E. unfold convex_round. cbn [mst xk f1 l1 bounded kdelta]. rewrite !t_py_get.
    destruct (py_get (xk s) (l1 s)) as [a|x]; [|reflexivity]. cbn [rmap bind].
    destruct (py_get (xk s) (f1 s)) as [b|x]; [|reflexivity]. cbn [rmap bind].
    rewrite (sim_ahead _ _ E). destruct (k_ahead o vi vj) as [ep|]; [|reflexivity]. cbn [option_map].
    rewrite (sim_ccw H), sim_scan_F, sim_scan_L. destruct (k_ccw o vi ep a); [reflexivity|].
    rewrite (sim_cut_convex d vi ep s). destruct (cut_convex _ _ _ _ _) as [[c|]|x]; try reflexivity.
    cbn [bind rmap option_map]. rewrite sim_after. reflexivity.
  Qed.
  Lemma sim_round v d i s : sim_edge (nth i v d) (kget d v (Z.of_nat i + 1)) ->
    kernel_round o' (map f v) (f d) i (mst s) = rmap (option_map mst) (kernel_round o v d i s).
  Proof.
    intros E. unfold kernel_round. rewrite sim_reflex, map_nth, sim_kget.
    destruct (is_reflex o v d i); [now apply sim_reflex_round|now apply sim_convex_round].
  Qed.
  Lemma sim_loop v d is : forall s, (forall i, In i is -> sim_edge (nth i v d) (kget d v (Z.of_nat i + 1))) ->
    kernel_loop o' (map f v) (f d) is (mst s) = rmap (option_map mst) (kernel_loop o v d is s).
  Proof.
    induction is as [|i r IH]; intros s E; cbn [kernel_loop]; [reflexivity|].
    rewrite sim_round by (apply E; now left). destruct (kernel_round o v d i s) as [[s'|]|x]; try reflexivity.
    cbn [rmap option_map bind]. apply IH. intros j Hj. apply E. now right.
  Qed.
  Lemma sim_first_rows l : forall seen, first_rows o' (map f seen) (map f l) = map f (first_rows o seen l).
  Proof.
    induction l as [|p l IH]; intros seen; cbn [first_rows map]; [reflexivity|].
    assert (E : existsb (k_eq o' (f p)) (map f seen) = existsb (k_eq o p) seen).
    { clear IH. induction seen as [|q seen IH]; cbn; [auto|]. now rewrite (sim_eq H), IH. }
    rewrite E. clear E. destruct (existsb (k_eq o p) seen); [apply IH|]. cbn [map]. f_equal. apply (IH (p :: seen)).
  Qed.
  Lemma sim_to_polygon l : to_polygon (map f l) = rmap (map f) (to_polygon l).
  Proof. destruct l as [|a [|b [|c l]]]; reflexivity. Qed.

  (* the pairs of points the far points are built from *)
  Definition sim_ring (v : list P) : Prop :=
    forall d, nth_error v 0 = Some d ->
      (forall i, (i < length v)%nat -> sim_edge (nth i v d) (kget d v (Z.of_nat i + 1))) /\
      sim_edge (nth 0 v d) (nth 1 v d) /\ sim_edge (nth 0 v d) (nth (length v - 1) v d).

  Lemma py_get_nth {A} (l : list A) i a d : py_get l i = Ret a -> exists j, py_index (length l) i = Some j /\ a = nth j l d.
  Proof.
    unfold py_get. destruct (py_index (length l) i) as [j|] eqn:E; [|discriminate].
    destruct (nth_error l j) eqn:E2; intros X; inversion X; subst. exists j. split; [reflexivity|]. symmetry. now apply nth_error_nth.
  Qed.
  Lemma sim_kernel_start v : sim_ring v -> kernel_start o' (map f v) = rmap mst (kernel_start o v).
  Proof.
    intros R. unfold kernel_start. rewrite !t_py_get.
    destruct (py_get v 0) as [a|x] eqn:Ea; [|reflexivity]. cbn [rmap bind].
    destruct (py_get v 1) as [b|x] eqn:Eb; [|reflexivity]. cbn [rmap bind].
    destruct (py_get v (-1)) as [c|x] eqn:Ec; [|reflexivity]. cbn [rmap bind].
    destruct v as [|d r]; [discriminate|]. destruct (R d eq_refl) as [_ [E1 E2]].
    assert (a = d) by (unfold py_get in Ea; cbn in Ea; congruence). subst a.
    destruct (py_get_nth _ _ _ d Eb) as [j [Ej ->]]. destruct (py_get_nth _ _ _ d Ec) as [k [Ek ->]].
    assert (j = 1%nat) by (unfold py_index in Ej; cbn [Z.leb Z.compare] in Ej; destruct (Z.ltb _ _); [injection Ej as <-; reflexivity|discriminate]).
    assert (k = (length (d :: r) - 1)%nat).
    { unfold py_index in Ek. change (0 <=? -1)%Z with false in Ek. cbv iota in Ek.
      destruct (Z.leb _ _); [|discriminate]. assert (K : Z.to_nat (-1 + Z.of_nat (length (d :: r))) = k) by congruence.
      rewrite <- K. lia. }
    subst j k. change (nth 0 (d :: r) d) with d in E1, E2. rewrite (sim_away _ _ E1), (sim_away _ _ E2).
    destruct (k_away o d (nth 1 (d :: r) d)); [|reflexivity]. destruct (k_away o d _); reflexivity.
  Qed.

  Lemma sim_scan_kernel v v1 : remove_inline o v = Ret v1 -> sim_ring (start_reflex o v1) ->
    scan_kernel o' (map f v) = rmap (option_map (map f)) (scan_kernel o v).
  Proof.
    intros E R. unfold scan_kernel. rewrite sim_remove, E. cbn [rmap bind]. rewrite sim_start.
    destruct (start_reflex o v1) as [|d r] eqn:E2; [reflexivity|]. cbn [map]. cbv iota beta.
    change (f d :: map f r) with (map f (d :: r)). rewrite (sim_kernel_start _ R), map_length.
    destruct (kernel_start o (d :: r)) as [s0|x]; [|reflexivity]. cbn [rmap bind].
    rewrite sim_loop.
    2:{ intros i Hi. apply in_seq in Hi. apply (R d eq_refl). cbn [length] in Hi |- *. lia. }
    destruct (kernel_loop o (d :: r) d _ s0) as [[s|]|x]; try reflexivity. cbn [rmap option_map bind].
    cbn [mst xk]. change (first_rows o' [] (map f (xk s))) with (first_rows o' (map f []) (map f (xk s))).
    rewrite sim_first_rows, sim_to_polygon. destruct (to_polygon _); reflexivity.
  Qed.
  Lemma sim_scan_kernel_all v : (forall a b, sim_edge a b) -> scan_kernel o' (map f v) = rmap (option_map (map f)) (scan_kernel o v).
  Proof.
    intros A. destruct (remove_inline o v) as [v1|x] eqn:E.
    - apply (sim_scan_kernel v v1 E). intros d _. repeat split; intros; apply A.
    - unfold scan_kernel. rewrite sim_remove, E. reflexivity.
  Qed.
End Sim.
