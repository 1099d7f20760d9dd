(** Model of the objects in the fifth value of cluster_and_starify, starshaped_hull/cluster_and_starify.py:282-287, 327-332, 392-398, 403-434.
    The entries of the history hold the cluster objects themselves, not copies. Within a call that was not cut short by max_iterations and
    whose obstacles have different ids, an object of one round is found again in a later round by its name, so a name stands for the object.
    Simplification: the list of the last round is the returned list; here its entries are the same objects. *)
From Coq Require Import String List.
From Verif Require Import M_Clusters M_Starify.
Import ListNotations.

Section History.
  Context {Obs G : Type} (M : methods Obs G) (Sh : shapely G).
  Notation cluster := (cluster Obs G).

  (* cluster_and_starify.py:431-432: what the caller finds in the place of a cluster that was put into the history as [c]: the object may be one of
     those returned, which make_convex has changed; otherwise only its polygon was computed since, cluster_and_starify.py:49 *)
  Definition seen_later (returned : list cluster) (c : cluster) : cluster :=
    match find (fun d => String.eqb (c_name c) (c_name d)) returned with
    | Some d => d
    | None => fst (read_polygon M Sh c)
    end.
  (* cluster_and_starify.py:446-447 *)
  Definition history_seen (a : answer Obs G) : option (list (list cluster)) :=
    match a_history a with
    | Some (Rounds l) => Some (map (map (seen_later (a_clusters a))) l)
    | _ => None
    end.
End History.
