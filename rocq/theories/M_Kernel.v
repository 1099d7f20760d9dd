(** Model of obstacles/starshaped_polygon.py:185-864 StarshapedPolygon._compute_kernel (the scan of Lee and Preparata),
    without the debug plots and the verbose output.  The scan only handles points through the tests of utils/cg.py
    and three constructions, so it is written over any type of points with these operations; [code_ops] below is what
    the source uses. *)
From Coq Require Import QArith Reals List Bool Arith ZArith.
From Verif Require Import Num M_Cg M_Motion M_Obstacle M_Polygon M_PolHull.
Import ListNotations.

(* the geometric operations used in starshaped_polygon.py:185-864, imported from cg.py (line 5) *)
Record kops (P : Type) : Type := {
  k_cw : P -> P -> P -> bool;                          (* is_cw *)
  k_ccw : P -> P -> P -> bool;                         (* is_ccw *)
  k_col : P -> P -> P -> bool;                         (* is_collinear *)
  k_same : P -> P -> P -> P -> P -> P -> bool;         (* orientation_val(a, b, c) * orientation_val(d, e, f) > 0 *)
  k_between : P -> P -> P -> bool;                     (* is_between *)
  k_gi : P -> P -> P -> P -> option P;                 (* get_intersection *)
  k_away : P -> P -> option P;                         (* p + INF_VAL * (p - q) / norm(p - q); None: 0 / 0 *)
  k_ahead : P -> P -> option P;                        (* p + INF_VAL * (q - p) / norm(q - p) *)
  k_before : P -> P -> option P;                       (* p - INF_VAL * (q - p) / norm(q - p) *)
  k_far : P -> P -> P;                                 (* p + INF_VAL * (q - p) *)
  k_eq : P -> P -> bool }.                             (* equal rows, in np.unique *)
Arguments k_cw {P}. Arguments k_ccw {P}. Arguments k_col {P}. Arguments k_same {P}. Arguments k_between {P}.
Arguments k_gi {P}. Arguments k_away {P}. Arguments k_ahead {P}. Arguments k_before {P}. Arguments k_far {P}. Arguments k_eq {P}.

(* the slice l[lo:hi] of Python: negative bounds count from the end, out-of-range bounds are clipped *)
Definition py_bound (n : nat) (i : Z) : nat :=
  if (i <? 0)%Z then Z.to_nat (i + Z.of_nat n) else Nat.min (Z.to_nat i) n.
(* the slice l[lo:hi] *)
Definition py_slice {A} (lo hi : Z) (l : list A) : list A :=
  let a := py_bound (length l) lo in let b := py_bound (length l) hi in firstn (b - a) (skipn a l).

Section Scan.
  Context {P : Type}.
  Variable o : kops P.

  (* xk[i] with an index known to be in range(-n, n); [d] is never used *)
  Definition zn (n : nat) (i : Z) : nat := Z.to_nat (i mod Z.of_nat n).
  (* xk[i] *)
  Definition kget (d : P) (xk : list P) (i : Z) : P := nth (zn (length xk) i) xk d.
  (* len(xk) or xk.shape[0] *)
  Definition zlen (xk : list P) : Z := Z.of_nat (length xk).

  (* starshaped_polygon.py:225-228 the indices after v_idcs[i-1] = v_idcs[i-2] for collinear triples *)
  Fixpoint drop_inline (v : list P) (d : P) (ids : list nat) (is : list nat) : list nat :=
    match is with
    | [] => ids
    | i :: r =>
        let n := length ids in
        let at_ (k : Z) := nth (zn n (Z.of_nat i - k)) ids 0%nat in
        let ids' := if k_col o (nth (at_ 2%Z) v d) (nth (at_ 1%Z) v d) (nth (at_ 0%Z) v d)
                    then firstn (zn n (Z.of_nat i - 1)) ids ++ at_ 2%Z :: skipn (S (zn n (Z.of_nat i - 1))) ids
                    else ids in
        drop_inline v d ids' r
    end.
  (* starshaped_polygon.py:229-230 np.unique: sorted without repetitions, so the indices that occur, in order *)
  Definition keep_indices (v : list P) (d : P) (ids : list nat) : list P :=
    map (fun i => nth i v d) (filter (fun i => existsb (Nat.eqb i) ids) (seq 0 (length v))).
  (* starshaped_polygon.py:223-232; fewer than two vertices: v_idcs[-2] or v[-2] raises *)
  Definition remove_inline (v : list P) : res (list P) :=
    match v with
    | d :: _ :: _ =>
        let v' := keep_indices v d (drop_inline v d (seq 0 (length v)) (seq 0 (length v))) in
        bind (py_get v' (-2)) (fun a => bind (py_get v' (-1)) (fun b => bind (py_get v' 0) (fun c =>
          if k_col o a b c then Ret (removelast v') else Ret v')))
    | _ => Exn IndexErr
    end.

  (* starshaped_polygon.py:191-192 is_reflex(i) *)
  Definition is_reflex (v : list P) (d : P) (i : nat) : bool :=
    k_cw o (kget d v (Z.of_nat i - 1)) (nth i v d) (kget d v (Z.of_nat i + 1)).
  (* starshaped_polygon.py:235-239 *)
  Definition start_reflex (v : list P) : list P :=
    match v with
    | [] => []
    | d :: _ =>
        match find (is_reflex v d) (seq 0 (length v)) with
        | Some i => skipn i v ++ firstn i v
        | None => v
        end
    end.

  (* the variables of the loop; delta stays assigned from one round to the next *)
  Record kst : Type := KSt { xk : list P; f1 : Z; l1 : Z; bounded : bool; kdelta : option (list P) }.

  (* starshaped_polygon.py:527-533, 773-792 scan xk ccw from F1 *)
  Definition scan_F (d q : P) (l : list P) (f : Z) : Z :=
    match find (fun off => let t := ((f + Z.of_nat off) mod zlen l)%Z in
                           k_cw o q (k_far o q (kget d l t)) (kget d l (t + 1))) (seq 0 (length l)) with
    | Some off => ((f + Z.of_nat off) mod zlen l)%Z
    | None => f
    end.
  (* starshaped_polygon.py:546-553, 804-824 and 832-851: scan ccw from [f]; [old] is the value kept otherwise *)
  Definition scan_L (d q : P) (l : list P) (f old : Z) : Z :=
    match find (fun off => let u := ((f + Z.of_nat off) mod zlen l)%Z in
                           k_ccw o q (k_far o q (kget d l u)) (kget d l (u + 1))) (seq 0 (length l)) with
    | Some off => ((f + Z.of_nat off) mod zlen l)%Z
    | None => old
    end.

  (* starshaped_polygon.py:304-332: the edge t-1, t met first from F1 on; break at the end of an unbounded chain and at L1 *)
  Fixpoint scan_w1 (d a b : P) (l : list P) (bd : bool) (f lidx : Z) (offs : list nat) : option (P * Z) :=
    match offs with
    | [] => None
    | off :: r =>
        let t := ((f + Z.of_nat off) mod zlen l)%Z in
        if negb bd && (t =? 0)%Z then None
        else match k_gi o (kget d l (t - 1)) (kget d l t) a b with
             | Some w => Some (w, t)
             | None => if (t =? lidx)%Z then None else scan_w1 d a b l bd f lidx r
             end
    end.
  (* starshaped_polygon.py:349-358: the first edge s-1, s met among [idcs] *)
  Fixpoint scan_edges (d a b : P) (l : list P) (idcs : list Z) : option (P * Z) :=
    match idcs with
    | [] => None
    | s :: r => match k_gi o (kget d l (s - 1)) (kget d l s) a b with
                | Some w => Some (w, s)
                | None => scan_edges d a b l r
                end
    end.
  (* starshaped_polygon.py:349-350 *)
  Definition idcs_cw (l : list P) (bd : bool) (f : Z) : list Z :=
    if bd then map (fun k => ((f - Z.of_nat k) mod zlen l)%Z) (seq 0 (length l))
    else map (fun k => (f - Z.of_nat k)%Z) (seq 0 (Z.to_nat f)).
  (* starshaped_polygon.py:476-478: edges r, r-1 from the end on *)
  Fixpoint scan_back (d a b : P) (l : list P) (r : nat) : option (P * Z) :=
    match r with
    | O => None
    | S r' => match k_gi o (nth r l d) (nth r' l d) a b with
              | Some w => Some (w, Z.of_nat r)
              | None => scan_back d a b l r'
              end
    end.

  (* starshaped_polygon.py:441-514 update 3 of a reflex vertex.  Line 464 is inside "if debug", so delta keeps its old value
     when the closing edge is met; vstack with None raises ValueError *)
  Definition close_reflex (d sp vj w1 : P) (t : Z) (s : kst) : res (P * kst) :=
    let l := xk s in
    let build (w2 : P) (delta : list P) :=
      let l' := delta ++ [w2; w1] in
      Ret (w2, KSt l' (zlen delta) (Z.min (l1 s - t) (zlen l' - 1)) true (Some delta)) in
    match (if bounded s then k_gi o (kget d l 0) (kget d l (-1)) sp vj else None) with
    | Some w2 => match kdelta s with None => Exn UnboundErr | Some delta => build w2 delta end
    | None =>
        match scan_back d sp vj l (length l - 1) with
        | Some (w2, r) => build w2 (py_slice t r l)
        | None => match kdelta s with None => Exn UnboundErr | Some _ => Exn ValueErr end
        end
    end.

  (* starshaped_polygon.py:286-514, 517-523: case 1 of a reflex vertex, with the F1 update; None: return False *)
  Definition cut_reflex (d sp vj : P) (s : kst) : res (option kst) :=
    let l := xk s in
    match scan_w1 d sp vj l (bounded s) (f1 s) (l1 s) (seq 1 (length l)) with
    | None => Ret None
    | Some (w1, t) =>
        match scan_edges d sp vj l (idcs_cw l (bounded s) (f1 s)) with
        | Some (w2, e) =>
            if bounded s && (t <? e)%Z
            then Ret (Some (KSt ([] ++ [w2; w1] ++ py_slice t e l) 0 (l1 s - t + 2) true (kdelta s)))
            else Ret (Some (KSt (py_slice 0 e l ++ [w2; w1] ++ py_slice t (zlen l) l) (zlen (py_slice 0 e l))
                                (l1 s - t + e + 2) (bounded s) (kdelta s)))
        | None =>
            if k_same o (kget d l (-2)) (kget d l (-1)) sp vj sp (kget d l 0)
            then Ret (Some (KSt ([sp; w1] ++ py_slice t (zlen l) l) 0 (l1 s - (t - 1)) (bounded s) (kdelta s)))
            else bind (close_reflex d sp vj w1 t s) (fun r => Ret (Some (snd r)))
        end
    end.

  (* starshaped_polygon.py:271-553 *)
  Definition reflex_round (d vi vj : P) (s : kst) : res (option kst) :=
    bind (py_get (xk s) (l1 s)) (fun _ => bind (py_get (xk s) (f1 s)) (fun F1 =>
    match k_before o vi vj with
    | None => Exn NotFinite
    | Some sp =>
        bind (if k_ccw o sp vj F1
              then Ret (Some (KSt (xk s) (scan_F d vj (xk s) (f1 s)) (l1 s) (bounded s) (kdelta s)))
              else cut_reflex d sp vj s)
        (fun r => match r with
                  | None => Ret None
                  | Some s' => Ret (Some (KSt (xk s') (f1 s') (scan_L d vj (xk s') (l1 s') (l1 s')) (bounded s') (kdelta s')))
                  end)
    end)).

  (* starshaped_polygon.py:585-595: the edge t, t-1 met first from L1 backwards, before F1 is reached *)
  Fixpoint scan_back_w1 (d a b : P) (l : list P) (f lidx : Z) (offs : list nat) : option (P * Z) :=
    match offs with
    | [] => None
    | off :: r =>
        let t := (let t0 := lidx - Z.of_nat off in if t0 <? 0 then t0 + zlen l else t0)%Z in
        if (t =? f)%Z then None
        else match k_gi o (kget d l t) (kget d l (t - 1)) a b with
             | Some w => Some (w, t)
             | None => scan_back_w1 d a b l f lidx r
             end
    end.
  (* starshaped_polygon.py:633-641: the edge s-1, s met first after L1 *)
  Fixpoint scan_w2 (d a b : P) (l : list P) (bd : bool) (lidx : Z) (offs : list nat) : option (P * Z) :=
    match offs with
    | [] => None
    | off :: r =>
        let s := ((lidx + Z.of_nat off) mod zlen l)%Z in
        if negb bd && (s =? 0)%Z then None
        else match k_gi o (kget d l (s - 1)) (kget d l s) a b with
             | Some w => Some (w, s)
             | None => scan_w2 d a b l bd lidx r
             end
    end.
  (* starshaped_polygon.py:728-731: edges r-1, r from the start on *)
  Fixpoint scan_start (d a b : P) (l : list P) (rs : list nat) : option (P * Z) :=
    match rs with
    | [] => None
    | r :: rest => match k_gi o (kget d l (Z.of_nat r - 1)) (kget d l (Z.of_nat r)) a b with
                   | Some w => Some (w, Z.of_nat r)
                   | None => scan_start d a b l rest
                   end
    end.

  (* result of case 1 of a convex vertex: the new state, w1 with its index, and w2 with its index when there is one *)
  Definition cut_res : Type := (kst * P * Z * option (P * Z))%type.

  (* starshaped_polygon.py:578-764: case 1 of a convex vertex; None: return False *)
  Definition cut_convex (d vi ep : P) (s : kst) : res (option cut_res) :=
    let l := xk s in
    match scan_back_w1 d vi ep l (f1 s) (l1 s) (seq 0 (length l)) with
    | None => Ret None
    | Some (w1, t) =>
        match scan_w2 d vi ep l (bounded s) (l1 s) (seq 1 (length l)) with
        | Some (w2, e) =>
            let alpha := if bounded s && (e <? t)%Z then [] else py_slice 0 t l in
            let beta := if bounded s && (e <? t)%Z then py_slice e t l else py_slice e (zlen l) l in
            Ret (Some (KSt (alpha ++ [w1; w2] ++ beta) (f1 s) (l1 s) (bounded s) (kdelta s),
                       w1, zlen alpha, Some (w2, (zlen alpha + 1)%Z)))
        | None =>
            if negb (bounded s) && k_same o (kget d l (-2)) (kget d l (-1)) ep vi ep (kget d l 0)
            then let alpha := py_slice 0 t l in
                 let l' := alpha ++ [w1; ep] in
                 Ret (Some (KSt l' 0 (zlen l' - 1) (bounded s) (kdelta s), w1, zlen alpha, None))
            else
              match scan_start d vi ep l (seq 1 (length l)) with
              | Some (w2, r) =>
                  let delta := py_slice r t l in
                  let l' := delta ++ [w1; w2] in
                  Ret (Some (KSt l' 0 (Z.min (l1 s - t) (zlen l' - 1)) true (Some delta),
                             w1, zlen delta, Some (w2, (zlen delta + 1)%Z)))
              | None => match kdelta s with None => Exn UnboundErr | Some _ => Exn ValueErr end
              end
        end
    end.

  (* starshaped_polygon.py:767-824 the F1 and L1 updates after case 1 of a convex vertex *)
  Definition after_cut_convex (d vi vj : P) (r : cut_res) : kst :=
    let '(s, w1, i1, ow2) := r in
    let f' := if k_between o vi vj w1 then scan_F d vj (xk s) (f1 s) else i1 in
    let l' := match ow2 with
              | Some (w2, i2) => if k_between o vi vj w2 then i2 else scan_L d vj (xk s) i2 (l1 s)
              | None => (zlen (xk s) - 1)%Z
              end in
    KSt (xk s) f' l' (bounded s) (kdelta s).

  (* starshaped_polygon.py:555-851 *)
  Definition convex_round (d vi vj : P) (s : kst) : res (option kst) :=
    bind (py_get (xk s) (l1 s)) (fun L1 => bind (py_get (xk s) (f1 s)) (fun _ =>
    match k_ahead o vi vj with
    | None => Exn NotFinite
    | Some ep =>
        if k_ccw o vi ep L1
        then Ret (Some (KSt (xk s) (scan_F d vj (xk s) (f1 s))
                            (if bounded s then scan_L d vj (xk s) (l1 s) (l1 s) else l1 s) (bounded s) (kdelta s)))
        else bind (cut_convex d vi ep s) (fun r =>
             match r with None => Ret None | Some c => Ret (Some (after_cut_convex d vi vj c)) end)
    end)).

  (* starshaped_polygon.py:261-277, one round *)
  Definition kernel_round (v : list P) (d : P) (i : nat) (s : kst) : res (option kst) :=
    let vi := nth i v d in let vj := kget d v (Z.of_nat i + 1) in
    if is_reflex v d i then reflex_round d vi vj s else convex_round d vi vj s.
  (* starshaped_polygon.py:261-862 the loop over the vertices *)
  Fixpoint kernel_loop (v : list P) (d : P) (is : list nat) (s : kst) : res (option kst) :=
    match is with
    | [] => Ret (Some s)
    | i :: r => bind (kernel_round v d i s) (fun x =>
                match x with None => Ret None | Some s' => kernel_loop v d r s' end)
    end.

  (* starshaped_polygon.py:241-248; F1 = v[0] + INF_VAL*(v[0]-v[1])/norm, L1 = v[0] + INF_VAL*(v[0]-v[-1])/norm *)
  Definition kernel_start (v : list P) : res kst :=
    bind (py_get v 0) (fun v0 => bind (py_get v 1) (fun v1 => bind (py_get v (-1)) (fun vl =>
    match k_away o v0 v1, k_away o v0 vl with
    | Some F1, Some L1 => Ret (KSt [F1; v0; L1] 0 2 false None)
    | _, _ => Exn NotFinite
    end))).

  (* starshaped_polygon.py:862-863: np.unique with return_index, indices sorted: the first of equal rows is kept *)
  Fixpoint first_rows (seen l : list P) : list P :=
    match l with
    | [] => []
    | p :: r => if existsb (k_eq o p) seen then first_rows seen r else p :: first_rows (p :: seen) r
    end.
  (* starshaped_polygon.py:864 shapely.geometry.Polygon(xk); fewer than three coordinates raise ValueError *)
  Definition to_polygon (l : list P) : res (list P) :=
    match l with [] => Ret [] | [_] | [_; _] => Exn ValueErr | _ => Ret l end.

  (* starshaped_polygon.py:221-864 for a polygon that is not convex; [v]: the vertices of the oriented exterior.
     None: return False, _kernel is not assigned *)
  Definition scan_kernel (v : list P) : res (option (list P)) :=
    bind (remove_inline v) (fun v1 =>
    match start_reflex v1 with
    | [] => Exn IndexErr
    | (d :: _) as v2 =>
        bind (kernel_start v2) (fun s0 =>
        bind (kernel_loop v2 d (seq 1 (length v2 - 1)) s0) (fun r =>
        match r with
        | None => Ret None
        | Some s => bind (to_polygon (first_rows [] (xk s))) (fun k => Ret (Some k))
        end))
    end).
End Scan.
Arguments KSt {P}. Arguments xk {P}. Arguments f1 {P}. Arguments l1 {P}. Arguments bounded {P}. Arguments kdelta {P}.

Local Open Scope R_scope.
(* starshaped_polygon.py:241 INF_VAL = 300. *)
Definition INF_VAL : R := 300.
(* INF_VAL * w / np.linalg.norm(w) *)
Definition inf_along (w : RPt) : option RPt :=
  if Reqb (np_norm w) 0 then None else Some (INF_VAL * fst w / np_norm w, INF_VAL * snd w / np_norm w).
(* starshaped_polygon.py:242-243, 556, 284, 531 *)
Definition code_away (p q : RPt) : option RPt := match inf_along (psub p q) with Some w => Some (padd p w) | None => None end.
(* starshaped_polygon.py: p + INF_VAL*(q-p)/norm, lines as above *)
Definition code_ahead (p q : RPt) : option RPt := match inf_along (psub q p) with Some w => Some (padd p w) | None => None end.
(* starshaped_polygon.py: p - INF_VAL*(q-p)/norm, lines as above *)
Definition code_before (p q : RPt) : option RPt := match inf_along (psub q p) with Some w => Some (psub p w) | None => None end.
(* starshaped_polygon.py: p + INF_VAL*(q-p) without normalisation, lines as above *)
Definition code_far (p q : RPt) : RPt := padd p (INF_VAL * fst (psub q p), INF_VAL * snd (psub q p)).
(* the operations of cg.py over R *)
Definition code_ops : kops RPt := {|
  k_cw := is_cw; k_ccw := is_ccw; k_col := is_collinear;
  k_same := fun a b c d e f => Rltb 0 (orientation_val a b c * orientation_val d e f);
  k_between := is_between; k_gi := get_intersection;
  k_away := code_away; k_ahead := code_ahead; k_before := code_before; k_far := code_far;
  k_eq := fun a b => Reqb (fst a) (fst b) && Reqb (snd a) (snd b) |}.

(* starshaped_polygon.py:185-188, 221: a convex polygon is its own kernel.  obstacle.py:114-118 is_convex.
   [v]: self._polygon.exterior.coords[:-1], oriented by polygon.py:14 already, so orient in line 221 changes nothing *)
Definition compute_kernel (v : list RPt) : res (option (list RPt)) :=
  bind (check_convexity v) (fun c => if c then Ret (Some v) else scan_kernel code_ops v).

(* starshaped_polygon.py:10-20 the reference point the constructor stores.  [contains], [centroid] and [rep] are
   shapely's contains, centroid and representative_point of the kernel; a kernel that was not assigned is None,
   which has no attribute contains *)
Definition init_xr (contains : list RPt -> RPt -> bool) (centroid rep : list RPt -> RPt) (xr : option RPt) (v : list RPt) : res RPt :=
  match xr with
  | Some x => Ret x
  | None =>
      bind (compute_kernel v) (fun r =>
      match r with
      | None => Exn AttributeErr
      | Some k => Ret (if contains k (centroid k) then centroid k else rep k)
      end)
  end.
