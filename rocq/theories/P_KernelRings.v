(** C97 on rings of five to nine vertices.  Between them they take the two updates of an unbounded chain at a reflex
    vertex that no quadrilateral takes (starshaped_polygon.py:349-398 with two crossings and 400-440). *)
From Coq Require Import QArith Qreals Reals Lra Psatz List Bool Arith ZArith Lia.
From Verif Require Import Num Spec S_PolHull S_Kernel M_Cg M_Motion M_Obstacle M_Polygon M_PolHull M_Kernel L_Geom L_Cg L_KernelSim W_KernelQ
  W_PolWorld W_PolTransfer W_PolTriangles P_Kernel.
Import ListNotations.
Open Scope R_scope.

Lemma left_forall l x : left_of_all l x <-> Forall (fun e => 0 <= area2 (fst e) (snd e) x) (cyc_edges l).
Proof.
  unfold left_of_all. rewrite Forall_forall. split; [intros H [a b] I; now apply H|intros H a b I; exact (H (a, b) I)].
Qed.
Definition exact_run (v k : list (pt Q)) : Prop := ring_check v = true /\ q_kernel v = Ret (Some k) /\ ccwQ k = true.
Lemma ring_exact v k : exact_run v k -> compute_kernel (map qp v) = Ret (Some (map qp k)) /\ convex_ccw (map qp k).
Proof. intros (A & B & C). split; [rewrite compute_kernel_Q by exact A; now rewrite B|now apply ccwQ_convex]. Qed.
Ltac numerals := unfold qp, Q2R; cbn; repeat (apply (f_equal2 cons); [apply pair_eq; lra|]); reflexivity.
Ltac one_ring v k :=
  let H := fresh in
  assert (H : exact_run v k) by (repeat split; vm_compute; reflexivity);
  match goal with |- compute_kernel ?v' = Ret (Some ?k') /\ _ =>
    replace v' with (map qp v) by numerals; replace k' with (map qp k) by numerals end;
  destruct (ring_exact v k H) as [H1 H2]; split; [exact H1|]; split; [exact H2|];
  intros [x y]; rewrite !left_forall; unfold qp, Q2R; cbn [map cyc_edges combine app fst snd Qnum Qden];
  split; intros F; repeat match goal with F : Forall _ (_ :: _) |- _ => inversion_clear F end;
  repeat match goal with |- Forall _ (_ :: _) => constructor | |- Forall _ [] => constructor end;
  unfold area2, cross, vsub in *; cbn [fst snd] in *; lra.

Theorem C97_rings_partial : forall v k : list Pt,
  In (v, k) [([(0, 0); (-4, -3); (11, -3); (11, -8); (16, 4); (0, 4)], [(16, 4); (11, 4); (11, -3); (157 / 12, -3)]);
             ([(0, 0); (12, -9); (-4, 21); (1, 9); (1, 0)], [(19 / 4, 0); (76 / 11, -57 / 11); (12, -9); (36 / 5, 0)]);
             ([(0, 16); (-8, 16); (-11, 20); (-21, -4); (-30, -16); (0, 0)], [(0, 0); (0, 16 / 3); (-7, 44 / 3); (-21, -4); (-174 / 7, -464 / 35)]);
             ([(4, 0); (4, 46); (-31, -38); (-15, -8); (0, 0)], [(-161 / 15, 0); (4, 221 / 8); (4, 46); (-91 / 6, 0)]);
             ([(0, 0); (6, 8); (-15, 28); (-39, 10); (-34, 10); (-34, -17); (-29, -29); (-29, -7); (-5, 0)], [(-29, 10); (-29, 35 / 2); (-34, 55 / 4); (-34, 10)]);
             ([(0, 0); (-15, -20); (10, -20); (10, 5); (20, 29); (4, -1); (19, 35); (0, 35)], [(0, -53 / 5); (4, -1); (0, -17 / 2)]);
             ([(0, 0); (0, 20); (-30, 4); (-62, 4); (-62, -25); (-47, -45); (-26, -17); (-12, -17); (-12, 0)], [(-75 / 2, 0); (-53 / 4, 0); (-12, 5 / 3); (-12, 4); (-30, 4)]);
             ([(0, 0); (16, 12); (-8, 5); (-8, 28); (-44, 28); (-28, 16); (-16, 0); (-36, -15)], [(-8, 5); (-112 / 11, 48 / 11); (-34 / 3, 7 / 2); (-8, 1)]);
             ([(0, 0); (-16, 12); (-23, 12); (-28, 0); (-36, 0); (-18, -24)], [(0, 0); (-28, 0); (-216 / 7, -48 / 7); (-18, -24)])] ->
  compute_kernel v = Ret (Some k) /\ convex_ccw k /\ forall x, left_of_all k x <-> left_of_all v x.
Proof.
  intros v k I. cbn [In] in I. repeat destruct I as [I|I]; try (injection I as <- <-); [..|destruct I].
  - one_ring [(0, 0); (-4, -3); (11, -3); (11, -8); (16, 4); (0, 4)]%Q [(16, 4); (11, 4); (11, -3); (157 # 12, -3)]%Q.
  - one_ring [(0, 0); (12, -9); (-4, 21); (1, 9); (1, 0)]%Q [(19 # 4, 0); (76 # 11, -57 # 11); (12, -9); (36 # 5, 0)]%Q.
  - one_ring [(0, 16); (-8, 16); (-11, 20); (-21, -4); (-30, -16); (0, 0)]%Q [(0, 0); (0, 16 # 3); (-7, 44 # 3); (-21, -4); (-174 # 7, -464 # 35)]%Q.
  - one_ring [(4, 0); (4, 46); (-31, -38); (-15, -8); (0, 0)]%Q [(-161 # 15, 0); (4, 221 # 8); (4, 46); (-91 # 6, 0)]%Q.
  - one_ring [(0, 0); (6, 8); (-15, 28); (-39, 10); (-34, 10); (-34, -17); (-29, -29); (-29, -7); (-5, 0)]%Q [(-29, 10); (-29, 35 # 2); (-34, 55 # 4); (-34, 10)]%Q.
  - one_ring [(0, 0); (-15, -20); (10, -20); (10, 5); (20, 29); (4, -1); (19, 35); (0, 35)]%Q [(0, -53 # 5); (4, -1); (0, -17 # 2)]%Q.
  - one_ring [(0, 0); (0, 20); (-30, 4); (-62, 4); (-62, -25); (-47, -45); (-26, -17); (-12, -17); (-12, 0)]%Q [(-75 # 2, 0); (-53 # 4, 0); (-12, 5 # 3); (-12, 4); (-30, 4)]%Q.
  - one_ring [(0, 0); (16, 12); (-8, 5); (-8, 28); (-44, 28); (-28, 16); (-16, 0); (-36, -15)]%Q [(-8, 5); (-112 # 11, 48 # 11); (-34 # 3, 7 # 2); (-8, 1)]%Q.
  - one_ring [(0, 0); (-16, 12); (-23, 12); (-28, 0); (-36, 0); (-18, -24)]%Q [(0, 0); (-28, 0); (-216 # 7, -48 # 7); (-18, -24)]%Q.
Qed.
Print Assumptions C97_rings_partial.
