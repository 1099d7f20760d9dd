(** The timing vector of starshaped_hull/cluster_and_starify.py:cluster_and_starify.  What the function computes besides is left out: a [script] says which way it goes.
    clock k is the reading of the k-th call of time.time() that cluster_and_starify makes itself through tic and toc (utils/misc.py:9-14), in seconds; readings made by the
    functions it calls lie in between. *)
From Coq Require Import Reals List Bool Arith.
From Verif Require Import Num M_Starify.
Import ListNotations.
Local Open Scope R_scope.

(* what happens to one cluster in the loop of cluster_and_starify.py:327-393: found in the history, no kernel (default result), or built *)
Inductive work : Type := Kept | NoKernel | Built.
(* the course of a call: for every obstacle whether robot and goal are free of it (lines 204-212); the clusters of every pass of the while loop (line 310), which is left
   when no clusters intersect or after max_iterations; with make_convex, for every cluster whether it is convex already (line 419) *)
Record script : Type := Script { s_free : list bool; s_rounds : list (list work); s_convex : option (list bool) }.
(* the times of one iteration: kernel_time, ker_sel_time, hull_compute_time, star_obj_time, cluster_time at index n_iter *)
Record times : Type := Times { kernel_time : R; ker_sel_time : R; hull_compute_time : R; star_obj_time : R; cluster_time : R }.
(* cluster_and_starify.py:298, 395 hull_time *)
Definition hull_time (t : times) : R := ker_sel_time t + hull_compute_time t + star_obj_time t.
(* lines 176, 231, 311-316: a new entry of all lists *)
Definition no_times : times := Times 0 0 0 0 0.
(* what the call returns of this: the vector, the flag, n_iter; and how many readings it has made *)
Record timing : Type := Timing { vector : list R; t_flag : flag; t_n_iter : nat; readings : nat }.

Section Clock.
  Variable clock : nat -> R.
  Variable max_compute_time : option R.   (* None: np.inf, the default *)
  (* misc.py:13-14 toc, in milliseconds, as the k-th reading *)
  Definition toc (t0 : R) (k : nat) : R := (clock k - t0) * 1000.
  (* cluster_and_starify.py:198, 319, 421: max_compute_time < toc(t0) *)
  Definition late (k : nat) : bool := match max_compute_time with None => false | Some m => Rltb m (toc (clock 0) k) end.
  (* cluster_and_starify.py:185-190 default_result: [0.] * 4 *)
  Definition default_timing (n_iter k : nat) : timing := Timing [0; 0; 0; 0] INCOMPLETE n_iter k.
  (* cluster_and_starify.py:197-226; inl: default_result after so many readings *)
  Fixpoint prepare_clock (free : list bool) (k : nat) : nat + nat :=
    match free with
    | [] => inr k
    | f :: r => if late k then inl (S k) else if f then prepare_clock r (S k) else inl (S k)
    end.
  (* cluster_and_starify.py:241-267 and 334-390: one cluster, eight readings *)
  Definition build_times (t : times) (k : nat) : times :=
    Times (kernel_time t + toc (clock k) (k + 1)) (ker_sel_time t + toc (clock (k + 2)) (k + 3)) (hull_compute_time t + toc (clock (k + 4)) (k + 5))
      (star_obj_time t + toc (clock (k + 6)) (k + 7)) (cluster_time t).
  (* cluster_and_starify.py:234-296 first iteration *)
  Fixpoint first_times (obstacles : list bool) (t : times) (k : nat) : times * nat :=
    match obstacles with [] => (t, k) | _ :: r => first_times r (build_times t k) (k + 8) end.
  (* cluster_and_starify.py:326-393 the clusters of a later iteration; inl: default_result (lines 344-348) *)
  Fixpoint later_times (l : list work) (t : times) (k : nat) : nat + times * nat :=
    match l with
    | [] => inr (t, k)
    | Kept :: r => later_times r t k
    | NoKernel :: _ => inl (k + 1)%nat
    | Built :: r => later_times r (build_times t k) (k + 8)
    end.
  (* cluster_and_starify.py:304-306, 402-405 *)
  Definition clustering_times (t : times) (k : nat) : times :=
    Times (kernel_time t) (ker_sel_time t) (hull_compute_time t) (star_obj_time t) (toc (clock k) (k + 1)).
  (* cluster_and_starify.py:310-411 the loop; [all] the times of the iterations so far; inl: default_result with n_iter *)
  Fixpoint loop_times (rounds : list (list work)) (all : list times) (k : nat) : (nat * nat) + (list times * nat) :=
    match rounds with
    | [] => inr (all, k)
    | l :: r =>
        if late k then inl (length all, S k)
        else match later_times l no_times (S k) with
             | inl k' => inl (length all, k')
             | inr (t, k') => loop_times r (all ++ [clustering_times t k']) (k' + 2)
             end
    end.
  (* cluster_and_starify.py:418-434 with t1 = clock j; the flag, convex_time or toc(t1) of line 424, and the readings *)
  Fixpoint convex_times (l : list bool) (j k : nat) : flag * R * nat :=
    match l with
    | [] => (COMPLETE, toc (clock j) k, S k)
    | true :: r => convex_times r j k
    | false :: r => if late k then (MAX_COMPUTE_TIME_CONVEX_HULL, toc (clock j) (k + 1), (k + 2)%nat) else convex_times r j (S k)
    end.
  (* sum of a list *)
  Definition total (l : list R) : R := fold_left Rplus l 0.
  (* cluster_and_starify.py:424, 437: the vector *)
  Definition timing_vec (all : list times) (init_kernel_time convex_time : R) : list R :=
    [total (map cluster_time all); init_kernel_time + total (map kernel_time all); total (map hull_time all); convex_time].
  (* cluster_and_starify.py:168-450 *)
  Definition call_timing (s : script) : timing :=
    match prepare_clock (s_free s) 1 with
    | inl k => default_timing 0 k
    | inr k =>
        let init_kernel_time := toc (clock 0) k in
        let '(t, k1) := first_times (s_free s) no_times (S k) in
        match loop_times (s_rounds s) [clustering_times t k1] (k1 + 2) with
        | inl (n_iter, k2) => default_timing n_iter k2
        | inr (all, k2) =>
            match s_convex s with
            | None => Timing (timing_vec all init_kernel_time 0) COMPLETE (length all) k2
            | Some l => let '(f, c, k3) := convex_times l k2 (S k2) in Timing (timing_vec all init_kernel_time c) f (length all) k3
            end
        end
    end.
End Clock.
