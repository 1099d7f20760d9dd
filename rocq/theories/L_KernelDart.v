(** The kernel scan on a quadrilateral with one reflex vertex, step by step. *)
From Coq Require Import Reals List Bool Arith ZArith Lia.
From Verif Require Import Num M_Cg M_Obstacle M_PolHull M_Kernel.
Import ListNotations.

Lemma four_inline {P} (op : kops P) (w x y z : P) :
  k_col op y z w = false -> k_col op z w x = false -> k_col op w x y = false -> k_col op x y z = false ->
  remove_inline op [w; x; y; z] = Ret [w; x; y; z].
Proof.
  intros H0 H1 H2 H3. unfold remove_inline.
  assert (D : drop_inline op [w; x; y; z] w [0; 1; 2; 3]%nat [0; 1; 2; 3]%nat = [0; 1; 2; 3]%nat).
  { assert (K0 : forall r, drop_inline op [w; x; y; z] w [0; 1; 2; 3]%nat (0%nat :: r) = drop_inline op [w; x; y; z] w [0; 1; 2; 3]%nat r).
    { intros r. cbn [drop_inline].
      change (k_col op (nth (nth (zn (length [0; 1; 2; 3]%nat) (Z.of_nat 0 - 2)) [0; 1; 2; 3]%nat 0%nat) [w; x; y; z] w)
        (nth (nth (zn (length [0; 1; 2; 3]%nat) (Z.of_nat 0 - 1)) [0; 1; 2; 3]%nat 0%nat) [w; x; y; z] w)
        (nth (nth (zn (length [0; 1; 2; 3]%nat) (Z.of_nat 0 - 0)) [0; 1; 2; 3]%nat 0%nat) [w; x; y; z] w)) with (k_col op y z w). rewrite H0. reflexivity. }
    assert (K1 : forall r, drop_inline op [w; x; y; z] w [0; 1; 2; 3]%nat (1%nat :: r) = drop_inline op [w; x; y; z] w [0; 1; 2; 3]%nat r).
    { intros r. cbn [drop_inline].
      change (k_col op (nth (nth (zn (length [0; 1; 2; 3]%nat) (Z.of_nat 1 - 2)) [0; 1; 2; 3]%nat 0%nat) [w; x; y; z] w)
        (nth (nth (zn (length [0; 1; 2; 3]%nat) (Z.of_nat 1 - 1)) [0; 1; 2; 3]%nat 0%nat) [w; x; y; z] w)
        (nth (nth (zn (length [0; 1; 2; 3]%nat) (Z.of_nat 1 - 0)) [0; 1; 2; 3]%nat 0%nat) [w; x; y; z] w)) with (k_col op z w x). rewrite H1. reflexivity. }
    assert (K2 : forall r, drop_inline op [w; x; y; z] w [0; 1; 2; 3]%nat (2%nat :: r) = drop_inline op [w; x; y; z] w [0; 1; 2; 3]%nat r).
    { intros r. cbn [drop_inline].
      change (k_col op (nth (nth (zn (length [0; 1; 2; 3]%nat) (Z.of_nat 2 - 2)) [0; 1; 2; 3]%nat 0%nat) [w; x; y; z] w)
        (nth (nth (zn (length [0; 1; 2; 3]%nat) (Z.of_nat 2 - 1)) [0; 1; 2; 3]%nat 0%nat) [w; x; y; z] w)
        (nth (nth (zn (length [0; 1; 2; 3]%nat) (Z.of_nat 2 - 0)) [0; 1; 2; 3]%nat 0%nat) [w; x; y; z] w)) with (k_col op w x y). rewrite H2. reflexivity. }
    assert (K3 : forall r, drop_inline op [w; x; y; z] w [0; 1; 2; 3]%nat (3%nat :: r) = drop_inline op [w; x; y; z] w [0; 1; 2; 3]%nat r).
    { intros r. cbn [drop_inline].
      change (k_col op (nth (nth (zn (length [0; 1; 2; 3]%nat) (Z.of_nat 3 - 2)) [0; 1; 2; 3]%nat 0%nat) [w; x; y; z] w)
        (nth (nth (zn (length [0; 1; 2; 3]%nat) (Z.of_nat 3 - 1)) [0; 1; 2; 3]%nat 0%nat) [w; x; y; z] w)
        (nth (nth (zn (length [0; 1; 2; 3]%nat) (Z.of_nat 3 - 0)) [0; 1; 2; 3]%nat 0%nat) [w; x; y; z] w)) with (k_col op x y z). rewrite H3. reflexivity. }
    rewrite K0, K1, K2, K3. reflexivity. }
  change (seq 0 (length [w; x; y; z])) with [0; 1; 2; 3]%nat. rewrite D.
  change (keep_indices [w; x; y; z] w [0; 1; 2; 3]%nat) with [w; x; y; z].
  change (py_get [w; x; y; z] (-2)) with (Ret y). change (py_get [w; x; y; z] (-1)) with (Ret z). change (py_get [w; x; y; z] 0) with (Ret w).
  cbn [bind]. rewrite H0. reflexivity.
Qed.
Lemma four_start {P} (op : kops P) (w x y z : P) :
  start_reflex op [w; x; y; z] =
    if k_cw op z w x then [w; x; y; z] else if k_cw op w x y then [x; y; z; w] else if k_cw op x y z then [y; z; w; x]
    else if k_cw op y z w then [z; w; x; y] else [w; x; y; z].
Proof.
  unfold start_reflex. change (seq 0 (length [w; x; y; z])) with [0; 1; 2; 3]%nat. cbn [find].
  change (is_reflex op [w; x; y; z] w 0) with (k_cw op z w x). change (is_reflex op [w; x; y; z] w 1) with (k_cw op w x y).
  change (is_reflex op [w; x; y; z] w 2) with (k_cw op x y z). change (is_reflex op [w; x; y; z] w 3) with (k_cw op y z w).
  destruct (k_cw op z w x); [reflexivity|]. destruct (k_cw op w x y); [reflexivity|]. destruct (k_cw op x y z); [reflexivity|].
  destruct (k_cw op y z w); reflexivity.
Qed.

Section Run.
  Context {P : Type} (op : kops P) (o a b c F L e1 e2 e3 p q : P).
  Hypotheses (c0 : k_col op c o a = false) (c1 : k_col op o a b = false) (c2 : k_col op a b c = false) (c3 : k_col op b c o = false)
    (w0 : k_cw op c o a = true) (w1 : k_cw op o a b = false) (w2 : k_cw op a b c = false) (w3 : k_cw op b c o = false)
    (sF : k_away op o a = Some F) (sL : k_away op o c = Some L)
    (* round 1: edge a b *)
    (A1 : k_ahead op a b = Some e1) (B1 : k_ccw op a e1 L = false) (G1 : k_gi op L o a e1 = Some p)
    (M1 : k_same op o L e1 a e1 F = true) (T1 : k_between op a b p = false)
    (* round 2: edge b c *)
    (A2 : k_ahead op b c = Some e2) (B2 : k_ccw op b e2 e1 = false) (G2 : k_gi op e1 p b e2 = Some b)
    (M2 : k_same op p e1 e2 b e2 F = false) (G3 : k_gi op F o b e2 = Some q)
    (T2 : k_between op b c b = false) (T3 : k_between op b c q = false)
    (S1 : k_ccw op c (k_far op c q) o = false) (S2 : k_ccw op c (k_far op c o) p = false) (S3 : k_ccw op c (k_far op c p) b = true)
    (* round 3: edge c o *)
    (A3 : k_ahead op c o = Some e3) (B3 : k_ccw op c e3 p = false) (G4 : k_gi op p o c e3 = Some p) (G5 : k_gi op p b c e3 = Some p)
    (* the result *)
    (Epp : k_eq op p p = true) (Epo : k_eq op p o = false) (Ebo : k_eq op b o = false) (Ebp : k_eq op b p = false)
    (Eqo : k_eq op q o = false) (Eqp : k_eq op q p = false) (Eqb : k_eq op q b = false).

  Definition dart_tail : res (option (list P)) :=
    bind (kernel_start op [o; a; b; c]) (fun s0 =>
    bind (kernel_loop op [o; a; b; c] o [1; 2; 3]%nat s0) (fun r =>
    match r with
    | None => Ret None
    | Some s => bind (to_polygon (first_rows op [] (xk s))) (fun k => Ret (Some k))
    end)).

  Lemma dart_start : kernel_start op [o; a; b; c] = Ret (KSt [F; o; L] 0 2 false None).
  Proof.
    unfold kernel_start. change (py_get [o; a; b; c] 0) with (Ret o). change (py_get [o; a; b; c] 1) with (Ret a).
    change (py_get [o; a; b; c] (-1)) with (Ret c). cbn [bind]. rewrite sF, sL. reflexivity.
  Qed.
  Lemma dart_reflex : is_reflex op [o; a; b; c] o 1 = false /\ is_reflex op [o; a; b; c] o 2 = false /\ is_reflex op [o; a; b; c] o 3 = false.
  Proof.
    unfold is_reflex. change (k_cw op o a b = false /\ k_cw op a b c = false /\ k_cw op b c o = false).
    split; [exact w1|split; [exact w2|exact w3]].
  Qed.
  Lemma dart_round1 : kernel_round op [o; a; b; c] o 1 (KSt [F; o; L] 0 2 false None) = Ret (Some (KSt [F; o; p; e1] 2 3 false None)).
  Proof.
    unfold kernel_round. destruct dart_reflex as [R _]. rewrite R.
    change (nth 1 [o; a; b; c] o) with a. change (kget o [o; a; b; c] (Z.of_nat 1 + 1)) with b.
    unfold convex_round. cbn [xk f1 l1 bounded kdelta].
    change (py_get [F; o; L] 2) with (Ret L). change (py_get [F; o; L] 0) with (Ret F). cbn [bind]. rewrite A1, B1.
    assert (W : scan_back_w1 op o a e1 [F; o; L] 0 2 (seq 0 3) = Some (p, 2%Z)).
    { change (seq 0 3) with [0; 1; 2]%nat. cbn [scan_back_w1].
      change (kget o [F; o; L] _) with L at 1. change (kget o [F; o; L] _) with o at 1. cbn. rewrite G1. reflexivity. }
    assert (W' : scan_w2 op o a e1 [F; o; L] false 2 (seq 1 3) = None) by reflexivity.
    unfold cut_convex. cbn [xk f1 l1 bounded kdelta]. change (length [F; o; L]) with 3%nat. rewrite W, W'.
    change (kget o [F; o; L] (-2)) with o. change (kget o [F; o; L] (-1)) with L. change (kget o [F; o; L] 0) with F. rewrite M1.
    cbn [negb andb bind]. unfold after_cut_convex. rewrite T1. reflexivity.
  Qed.
  Lemma dart_round2 : kernel_round op [o; a; b; c] o 2 (KSt [F; o; p; e1] 2 3 false None) = Ret (Some (KSt [o; p; b; q] 2 1 true (Some [o; p]))).
  Proof.
    unfold kernel_round. destruct dart_reflex as [_ [R _]]. rewrite R.
    change (nth 2 [o; a; b; c] o) with b. change (kget o [o; a; b; c] (Z.of_nat 2 + 1)) with c.
    unfold convex_round. cbn [xk f1 l1 bounded kdelta].
    change (py_get [F; o; p; e1] 3) with (Ret e1). change (py_get [F; o; p; e1] 2) with (Ret p). cbn [bind]. rewrite A2, B2.
    assert (W : scan_back_w1 op o b e2 [F; o; p; e1] 2 3 (seq 0 4) = Some (b, 3%Z)).
    { change (seq 0 4) with (0 :: seq 1 3)%nat. cbn [scan_back_w1]. cbn zeta.
      change ((3 - Z.of_nat 0 <? 0)%Z) with false. cbn iota. change ((3 - Z.of_nat 0)%Z) with 3%Z. change ((3 =? 2)%Z) with false. cbn iota.
      change (kget o [F; o; p; e1] 3) with e1. change (kget o [F; o; p; e1] (3 - 1)) with p. rewrite G2. reflexivity. }
    assert (W' : scan_w2 op o b e2 [F; o; p; e1] false 3 (seq 1 4) = None) by reflexivity.
    assert (W'' : scan_start op o b e2 [F; o; p; e1] (seq 1 4) = Some (q, 1%Z)).
    { change (seq 1 4) with (1 :: seq 2 3)%nat. cbn [scan_start].
      change (kget o [F; o; p; e1] (Z.of_nat 1 - 1)) with F. change (kget o [F; o; p; e1] (Z.of_nat 1)) with o. rewrite G3. reflexivity. }
    unfold cut_convex. cbn [xk f1 l1 bounded kdelta]. change (length [F; o; p; e1]) with 4%nat. rewrite W, W', W''.
    change (kget o [F; o; p; e1] (-2)) with p. change (kget o [F; o; p; e1] (-1)) with e1. change (kget o [F; o; p; e1] 0) with F. rewrite M2.
    cbn [negb andb bind]. change (py_slice 1 3 [F; o; p; e1]) with [o; p].
    unfold after_cut_convex. rewrite T2, T3.
    assert (Sc : scan_L op o c [o; p; b; q] 3 0 = 1%Z).
    { unfold scan_L. change (seq 0 (length [o; p; b; q])) with (0 :: 1 :: 2 :: seq 3 1)%nat. cbn [find].
      change (zlen [o; p; b; q]) with 4%Z. cbn zeta.
      change ((3 + Z.of_nat 0) mod 4)%Z with 3%Z. change ((3 + Z.of_nat 1) mod 4)%Z with 0%Z. change ((3 + Z.of_nat 2) mod 4)%Z with 1%Z.
      change (kget o [o; p; b; q] 3) with q. change (kget o [o; p; b; q] (3 + 1)) with o.
      change (kget o [o; p; b; q] 0) with o. change (kget o [o; p; b; q] (0 + 1)) with p.
      change (kget o [o; p; b; q] 1) with p. change (kget o [o; p; b; q] (1 + 1)) with b. rewrite S1, S2, S3. reflexivity. }
    cbn [app xk l1 bounded kdelta f1]. change (zlen [o; p] + 1)%Z with 3%Z. change (Z.min (3 - 3) (zlen [o; p; b; q] - 1))%Z with 0%Z. rewrite Sc. reflexivity.
  Qed.
  Lemma dart_round3 : exists f l, kernel_round op [o; a; b; c] o 3 (KSt [o; p; b; q] 2 1 true (Some [o; p])) = Ret (Some (KSt [o; p; p; b; q] f l true (Some [o; p]))).
  Proof.
    unfold kernel_round. destruct dart_reflex as [_ [_ R]]. rewrite R.
    change (nth 3 [o; a; b; c] o) with c. change (kget o [o; a; b; c] (Z.of_nat 3 + 1)) with o.
    unfold convex_round. cbn [xk f1 l1 bounded kdelta].
    change (py_get [o; p; b; q] 1) with (Ret p). change (py_get [o; p; b; q] 2) with (Ret b). cbn [bind]. rewrite A3, B3.
    assert (W : scan_back_w1 op o c e3 [o; p; b; q] 2 1 (seq 0 4) = Some (p, 1%Z)).
    { change (seq 0 4) with (0 :: seq 1 3)%nat. cbn [scan_back_w1]. cbn zeta.
      change ((1 - Z.of_nat 0 <? 0)%Z) with false. cbn iota. change ((1 - Z.of_nat 0)%Z) with 1%Z. change ((1 =? 2)%Z) with false. cbn iota.
      change (kget o [o; p; b; q] 1) with p. change (kget o [o; p; b; q] (1 - 1)) with o. rewrite G4. reflexivity. }
    assert (W' : scan_w2 op o c e3 [o; p; b; q] true 1 (seq 1 4) = Some (p, 2%Z)).
    { change (seq 1 4) with (1 :: seq 2 3)%nat. cbn [scan_w2]. cbn zeta. cbn [negb andb].
      change (zlen [o; p; b; q]) with 4%Z. change ((1 + Z.of_nat 1) mod 4)%Z with 2%Z.
      change (kget o [o; p; b; q] (2 - 1)) with p. change (kget o [o; p; b; q] 2) with b. rewrite G5. reflexivity. }
    unfold cut_convex. cbn [xk f1 l1 bounded kdelta]. change (length [o; p; b; q]) with 4%nat. rewrite W, W'.
    change (true && (2 <? 1)%Z) with false. cbn iota. change (py_slice 0 1 [o; p; b; q]) with [o].
    change (py_slice 2 (zlen [o; p; b; q]) [o; p; b; q]) with [b; q]. cbn [bind app]. unfold after_cut_convex.
    cbn [xk bounded kdelta]. eexists. eexists. reflexivity.
  Qed.
  Lemma dart_result : dart_tail = Ret (Some [o; p; b; q]).
  Proof.
    unfold dart_tail. rewrite dart_start. cbn [bind kernel_loop]. rewrite dart_round1. cbn [bind]. rewrite dart_round2. cbn [bind].
    destruct dart_round3 as [f [l E]]. rewrite E. cbn [bind xk]. clear E. cbn [first_rows existsb]. rewrite Epo, Epp. cbn [existsb orb].
    rewrite Ebp, Ebo. cbn [orb first_rows existsb]. rewrite Eqb, Eqp, Eqo. reflexivity.
  Qed.

  Lemma dart_scan v : In v [[o; a; b; c]; [a; b; c; o]; [b; c; o; a]; [c; o; a; b]] -> scan_kernel op v = Ret (Some [o; p; b; q]).
  Proof.
    intros H. assert (E : remove_inline op v = Ret v /\ start_reflex op v = [o; a; b; c]).
    { destruct H as [<-|[<-|[<-|[<-|[]]]]]; (split; [apply four_inline; assumption|rewrite four_start, ?w0, ?w1, ?w2, ?w3; reflexivity]). }
    destruct E as [E1 E2]. unfold scan_kernel. rewrite E1. cbn [bind]. rewrite E2.
    change (seq 1 (length [o; a; b; c] - 1)) with [1; 2; 3]%nat. exact dart_result.
  Qed.
End Run.
