(** Vocabulary of the guarantee about a complete answer. *)
From Coq Require Import Reals List.
From Verif Require Import Spec.
Import ListNotations.
Open Scope R_scope.

(** [p] and all points close to it belong to [S] *)
Definition interior (S : region) (p : Pt) : Prop := exists r, 0 < r /\ forall q, dist p q < r -> S q.
(** the obstacle [o] stands behind [x] for an observer at [k] *)
Definition hides_behind (O : region) (x k : Pt) : Prop := exists o, O o /\ on_seg k o x.
