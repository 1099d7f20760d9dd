(** Properties C13-C14: convex_hull of utils/cg.py. *)
From Coq Require Import Reals List.
From Verif Require Import Num Spec M_Cg M_Hull W_Hull.
Import ListNotations.
Open Scope R_scope.

(** C13: it stops after at most n rounds with distinct input points, starting at the leftmost-topmost one,
    every other input point strictly left of every edge; the hull of the result is the hull of the input. *)
Theorem C13_convex_hull_correct : forall points : list Pt, points <> [] -> general_position points ->
  exists h, (forall fuel, (length points <= fuel)%nat -> convex_hull fuel points = Hull h) /\
    (exists p rest, h = p :: rest /\ leftmost_topmost points p) /\
    NoDup h /\ incl h points /\
    (forall a b, In (a, b) (cyc_edges h) -> forall r, In r points -> r <> a -> r <> b -> TH < area2 a b r) /\
    ((3 <= length points)%nat -> forall q,
       ((forall a b, In (a, b) (cyc_edges h) -> 0 <= area2 a b q) <-> in_hull points q) /\
       (in_hull h q <-> in_hull points q)).
Proof. exact hull_main. Qed.
Print Assumptions C13_convex_hull_correct.
Example C13_example : general_position [(0, 0); (2, 0); (0, 2); (1/2, 1/2)].
Proof. exact w_C13. Qed.

(** C14: false of the code.  With a repeated point the loop may never reach its end test. *)
Theorem C14_terminates_refuted : exists points : list Pt, points <> [] /\
  forall fuel, convex_hull fuel points = HullRunning.
Proof. exists dup. split; [discriminate | exact w_C14]. Qed.
Print Assumptions C14_terminates_refuted.
(** it does end within n rounds for distinct points with no near-collinear triple *)
Theorem C14_terminates_partial : forall points : list Pt, points <> [] -> general_position points ->
  exists h, convex_hull (length points) points = Hull h.
Proof.
  exact (fun points H G => match hull_main points H G with
    ex_intro _ h (conj F _) => ex_intro _ h (F (length points) (le_n _)) end).
Qed.
Print Assumptions C14_terminates_partial.
