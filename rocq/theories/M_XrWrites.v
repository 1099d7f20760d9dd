(** Model of what cluster_and_starify leaves behind in the obstacles of the caller: starshaped_hull/cluster_and_starify.py:259-262. The objects of the
    caller are not copied; when the hull adds nothing, the reference point of the obstacle itself is set (starshaped_obstacle.py:19-26).
    Simplification: reference points are given in the global frame, with the poses at the time of the call. *)
From Coq Require Import Reals List ZArith.
From Verif Require Import Num M_Cg M_Motion M_Obstacle M_Clusters M_Starify.
Import ListNotations.

Section Writes.
  Context {Obs G : Type} (M : methods Obs G) (Sh : shapely G).

  (* cluster_and_starify.py:259-261: the call of set_xr made for this cluster, if any *)
  Definition xr_write (cl : cluster Obs G) : list (Obs * RPt) :=
    match c_obstacle cl with Some (Original o (Some p)) => [(o, p)] | _ => [] end.
  (* cluster_and_starify.py:234-262: the calls of set_xr in their order; an exception ends the loop, what was set before stays set *)
  Fixpoint first_writes (op : options Obs G) (x xg : RPt) (k : cones G) (counter : Z) (i : nat) (obs : list Obs) : list (Obs * RPt) :=
    match obs with
    | [] => []
    | o :: r => match first_cluster M Sh op x xg k counter i o with
                | Val (counter', cl) => xr_write cl ++ first_writes op x xg k counter' (S i) r
                | _ => []
                end
    end.
  (* cluster_and_starify.py:168-262: nothing is set when the function gives up or raises before line 234; nothing is set after line 262 *)
  Definition call_writes (op : options Obs G) (counter0 : Z) (x xg : RPt) (obs : list Obs) : list (Obs * RPt) :=
    let counter := match op_workspace op with None => (counter0 + 1)%Z | Some _ => counter0 end in
    match prepare M Sh op x xg obs 0 obs (Cones [] [] []) with
    | Val (Some k) => first_writes op x xg k counter 0 obs
    | _ => []
    end.
  (* starshaped_obstacle.py:16-17 xr() after the call; [same] tells whether two obstacles are one object *)
  Definition xr_after (same : Obs -> Obs -> bool) (writes : list (Obs * RPt)) (o : Obs) : RPt :=
    match find (fun e => same o (fst e)) (rev writes) with Some e => snd e | None => ob_xr M o end.
  (* the same obstacles with other reference points *)
  Definition with_xr (f : Obs -> RPt) : methods Obs G :=
    Methods Obs G (ob_id M) (ob_class M) (ob_is_convex M) (ob_is_starshaped M) (ob_polygon M) (ob_kernel M) (ob_tangent_points M) (ob_exterior_point M)
      (ob_extreme_points M) (ob_convex_hull M) (ob_polygon_hull M) f.
End Writes.
