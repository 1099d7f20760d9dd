(** An executable instance of the shapely operations used by polygon_kernel_starshaped_hull, for polygons given as a
    union of convex pieces: it runs over Q (vm_compute), is proved right over R, and the two agree. *)
From Coq Require Import QArith Qreals Reals Lra Psatz List Bool Arith ZArith Lia.
From Verif Require Import Num Spec M_Cg M_Motion M_Obstacle M_PolHull S_PolHull L_Geom L_PolHull.
Import ListNotations.

Section Exec.
  Context {T : Type} {N : Num T}.
  Local Open Scope num_scope.
  Notation pt := (pt T).

  (** the half-plane a x + b y + c >= 0 *)
  Definition half : Type := (T * T * T)%type.
  Definition hval (h : half) (p : pt) : T := let '(a, b, c) := h in a * fst p + b * snd p + c.
  Definition left_of (a b : pt) : half :=
    (snd a - snd b, fst b - fst a, (snd b - snd a) * fst a - (fst b - fst a) * snd a).
  (** the points ahead of a in the direction of b *)
  Definition ahead_of (a b : pt) : half :=
    (fst b - fst a, snd b - snd a, - ((fst b - fst a) * fst a + (snd b - snd a) * snd a)).
  Definition seg_halves (a b : pt) : list half :=
    if pt_eqb a b
    then [(n1, n0, - fst a); (- n1, n0, fst a); (n0, n1, - snd a); (n0, - n1, snd a)]
    else [left_of a b; left_of b a; ahead_of a b; ahead_of b a].

  Definition nmin (x y : T) : T := if x <=? y then x else y.
  Definition nmax (x y : T) : T := if x <=? y then y else x.
  Definition clip1 (i : option (T * T)) (f : T * T) : option (T * T) :=
    match i with
    | None => None
    | Some (lo, hi) =>
        if n0 <=? fst f
        then if n0 <=? snd f then Some (lo, hi) else Some (lo, nmin hi (fst f / (fst f - snd f)))
        else if n0 <=? snd f then Some (nmax lo (fst f / (fst f - snd f)), hi) else None
    end.
  (** the parameters at which the segment lies in all the half-planes *)
  Definition clip (s : seg T) (hs : list half) : option (T * T) :=
    match fold_left clip1 (map (fun h => (hval h (fst s), hval h (snd s))) hs) (Some (n0, n1)) with
    | Some (lo, hi) => if lo <=? hi then Some (lo, hi) else None
    | None => None
    end.
  Fixpoint ins (i : T * T) (l : list (T * T)) : list (T * T) :=
    match l with
    | [] => [i]
    | j :: r =>
        if snd i <? fst j then i :: j :: r
        else if snd j <? fst i then j :: ins i r
        else ins (nmin (fst i) (fst j), nmax (snd i) (snd j)) r
    end.
  Definition at_ (s : seg T) (t : T) : pt := padd (fst s) (pscale t (psub (snd s) (fst s))).
  Definition spans (pieces : list (list half)) (s : seg T) : list (T * T) :=
    fold_right (fun pc acc => match clip s pc with None => acc | Some i => ins i acc end) [] pieces.

  Definition is_line (p : part T) : bool := match p with PLine _ => true | PPoint _ => false end.
  Definition coords_of (p : part T) : list pt := match p with PLine c => c | PPoint q => [q] end.
  Definition classify (ps : list (part T)) : geom T :=
    match ps with
    | [] => GEmpty
    | [PLine c] => GLine c
    | _ => if forallb is_line ps then GMultiLine (map coords_of ps)
           else if forallb (fun p => negb (is_line p)) ps then GOther (concat (map coords_of ps))
           else GCollection ps
    end.
  Definition span_part (s : seg T) (i : T * T) : part T :=
    if (fst i =? snd i) || pt_eqb (fst s) (snd s) then PPoint (at_ s (fst i)) else PLine [at_ s (fst i); at_ s (snd i)].
  Definition positive (h : half) (v : pt) : bool := n0 <? hval h v.
  Definition strictly_inside (K : list pt) (v : pt) : bool :=
    match K with
    | [a; b; c] => (positive (left_of a b) v && positive (left_of b c) v && positive (left_of c a) v)
                   || (positive (left_of b a) v && positive (left_of c b) v && positive (left_of a c) v)
    | _ => false
    end.

  Definition pieces_world (pieces : list (list half)) (K : list pt) : pol_world T := {|
    pw_disjoint := fun s => match spans pieces s with [] => true | _ => false end;
    pw_meet := fun s => classify (map (span_part s) (spans pieces s));
    pw_cross := fun s s' =>
      match clip s (seg_halves (fst s') (snd s')) with
      | None => XEmpty
      | Some (lo, hi) => if (lo =? hi) || pt_eqb (fst s) (snd s) then XPoint (at_ s lo) else XLine (at_ s lo) (at_ s hi)
      end;
    pw_in_kernel := strictly_inside K |}.

  Definition triangle (a b c : pt) : list half := [left_of a b; left_of b c; left_of c a].
End Exec.
Arguments half : clear implicits.

(** *** Right over the reals *)
Open Scope R_scope.
Definition in_half (h : half R) (p : pt R) : Prop := 0 <= hval h p.
Definition in_pieces (pieces : list (list (half R))) : region := fun p => exists pc, In pc pieces /\ Forall (fun h => in_half h p) pc.

Lemma n0_R : @n0 R NumR = 0.
Proof. unfold n0. nR. apply Q2R_0. Qed.
Lemma n1_R : @n1 R NumR = 1.
Proof. unfold n1. nR. apply Q2R_1. Qed.
Lemma at_along (s : seg R) t : at_ s t = along (fst s) (snd s) t.
Proof. destruct s as [[a b] [c d]]. reflexivity. Qed.
Lemma pt_eqb_true (a b : pt R) : pt_eqb a b = true <-> a = b.
Proof.
  unfold pt_eqb. rewrite andb_true_iff. nR. rewrite !Reqb_true. destruct a, b; cbn. split; [intros [-> ->]; auto|intros E; injection E as <- <-; auto].
Qed.
Lemma hval_along h (s : seg R) t : hval h (at_ s t) = hval h (fst s) + t * (hval h (snd s) - hval h (fst s)).
Proof. destruct h as [[a b] c], s as [[x y] [z w]]. unfold hval, at_, padd, pscale, psub. nR. cbn [fst snd]. ring. Qed.
Lemma nmin_le (x y t : R) : t <= nmin x y <-> t <= x /\ t <= y.
Proof. unfold nmin. nR. destruct (Rleb_spec x y); split; lra. Qed.
Lemma nmax_le (x y t : R) : nmax x y <= t <-> x <= t /\ y <= t.
Proof. unfold nmax. nR. destruct (Rleb_spec x y); split; lra. Qed.
Lemma left_of_area2 (a b p : pt R) : hval (left_of a b) p = area2 a b p.
Proof. destruct a, b, p. unfold hval, left_of, area2, cross, vsub. nR. cbn [fst snd]. ring. Qed.

Definition within (i : option (R * R)) (t : R) : Prop := match i with None => False | Some (lo, hi) => lo <= t <= hi end.
Lemma clip1_spec i f t : 0 <= t <= 1 -> (within (clip1 i f) t <-> within i t /\ 0 <= fst f + t * (snd f - fst f)).
Proof.
  intros Ht. destruct i as [[lo hi]|]; cbn [clip1 within]; [|tauto]. destruct f as [f0 f1]. cbn [fst snd]. rewrite n0_R. nR.
  destruct (Rleb_spec 0 f0) as [A|A], (Rleb_spec 0 f1) as [B|B]; cbn [within].
  - split; [intros; split; auto; nra|tauto].
  - rewrite nmin_le. assert (D : 0 < f0 - f1) by lra.
    assert (E : t <= f0 / (f0 - f1) <-> 0 <= f0 + t * (f1 - f0)).
    { split; intros H.
      - apply Rmult_le_compat_r with (r := f0 - f1) in H; [|lra]. unfold Rdiv in H. rewrite Rmult_assoc, Rinv_l in H by lra. lra.
      - apply Rmult_le_reg_r with (f0 - f1); auto. unfold Rdiv. rewrite Rmult_assoc, Rinv_l by lra. lra. }
    rewrite E. tauto.
  - rewrite nmax_le. assert (D : 0 < f1 - f0) by lra.
    assert (E : f0 / (f0 - f1) <= t <-> 0 <= f0 + t * (f1 - f0)).
    { replace (f0 / (f0 - f1)) with (- f0 / (f1 - f0)) by (field; lra). split; intros H.
      - apply Rmult_le_compat_r with (r := f1 - f0) in H; [|lra]. unfold Rdiv in H. rewrite Rmult_assoc, Rinv_l in H by lra. lra.
      - apply Rmult_le_reg_r with (f1 - f0); auto. unfold Rdiv. rewrite Rmult_assoc, Rinv_l by lra. lra. }
    rewrite E. tauto.
  - split; [tauto|]. intros [_ H]. nra.
Qed.
Lemma clip1_bounds i f : (forall lo hi, i = Some (lo, hi) -> 0 <= lo /\ hi <= 1) -> forall lo hi, clip1 i f = Some (lo, hi) -> 0 <= lo /\ hi <= 1.
Proof.
  intros H lo hi. destruct i as [[l h]|]; cbn [clip1]; [|discriminate]. specialize (H l h eq_refl).
  rewrite n0_R. nR. destruct (Rleb_spec 0 (fst f)), (Rleb_spec 0 (snd f)); intros E; try discriminate; injection E as <- <-; try lra.
  - split; [lra|]. unfold nmin. nR. destruct (Rleb_spec h (fst f / (fst f - snd f))); lra.
  - split; [|lra]. unfold nmax. nR. destruct (Rleb_spec l (fst f / (fst f - snd f))); lra.
Qed.
Lemma clip_spec (s : seg R) hs t : within (clip s hs) t <-> 0 <= t <= 1 /\ Forall (fun h => in_half h (at_ s t)) hs.
Proof.
  unfold clip.
  assert (B : forall i, (forall lo hi, i = Some (lo, hi) -> 0 <= lo /\ hi <= 1) ->
    forall lo hi, fold_left clip1 (map (fun h => (hval h (fst s), hval h (snd s))) hs) i = Some (lo, hi) -> 0 <= lo /\ hi <= 1).
  { induction hs as [|h hs IH]; cbn [map fold_left]; auto. intros i Hi. apply IH. intros. eapply clip1_bounds; eauto. }
  assert (M : 0 <= t <= 1 -> forall i, within (fold_left clip1 (map (fun h => (hval h (fst s), hval h (snd s))) hs) i) t <->
    within i t /\ Forall (fun h => in_half h (at_ s t)) hs).
  { intros Ht. clear B. induction hs as [|h hs IH]; intros i; cbn [map fold_left].
    - split; [split; auto|tauto].
    - rewrite IH, clip1_spec by auto. cbn [fst snd]. rewrite Forall_cons_iff. unfold in_half at 2. rewrite hval_along. tauto. }
  assert (B0 : forall lo hi, Some (@n0 R NumR, @n1 R NumR) = Some (lo, hi) -> 0 <= lo /\ hi <= 1).
  { intros lo hi E. rewrite n0_R, n1_R in E. injection E as <- <-. lra. }
  specialize (B (Some (n0, n1)) B0). specialize (fun Ht => M Ht (Some (n0, n1))).
  destruct (fold_left clip1 _ _) as [[lo hi]|].
  - destruct (B lo hi eq_refl) as [B1 B2]. nR. destruct (Rleb_spec lo hi) as [L|L]; cbn [within] in *.
    + split.
      * intros Ht. assert (Ht' : 0 <= t <= 1) by lra. split; auto. apply M; auto.
      * intros [Ht F]. apply M; auto. split; auto. cbn [within]. rewrite n0_R, n1_R. lra.
    + split; [tauto|]. intros [Ht F]. assert (lo <= t <= hi); [|lra]. apply M; auto. split; auto. cbn [within]. rewrite n0_R, n1_R. lra.
  - cbn [within] in *. split; [tauto|]. intros [Ht F]. apply M; auto. split; auto. cbn [within]. rewrite n0_R, n1_R. lra.
Qed.
Lemma clip_nonempty (s : seg R) hs lo hi : clip s hs = Some (lo, hi) -> lo <= hi.
Proof. unfold clip. destruct (fold_left _ _ _) as [[a b]|]; [|discriminate]. nR. destruct (Rleb_spec a b); [|discriminate]. intros E; injection E as <- <-. auto. Qed.

Definition in_spans (l : list (R * R)) (t : R) : Prop := exists i, In i l /\ fst i <= t <= snd i.
Lemma ins_spec l : forall i t, fst i <= snd i -> (forall j, In j l -> fst j <= snd j) ->
  (in_spans (ins i l) t <-> (fst i <= t <= snd i) \/ in_spans l t) /\ (forall j, In j (ins i l) -> fst j <= snd j).
Proof.
  induction l as [|j l IH]; intros i t Hi Hl; cbn [ins].
  - split; [|simpl; intros j [<-|[]]; auto]. unfold in_spans. split.
    + intros (k & [<-|[]] & H). auto.
    + intros [H|(k & [] & _)]. exists i; simpl; auto.
  - nR. assert (Hj : fst j <= snd j) by (apply Hl; simpl; auto). assert (Hl' : forall k, In k l -> fst k <= snd k) by (intros k Hk; apply Hl; simpl; auto).
    destruct (Rltb_spec (snd i) (fst j)) as [A|A].
    { split; [|intros k [<-|Hk]; auto]. unfold in_spans. split.
      - intros (k & [<-|Hk] & H); auto. right. eauto.
      - intros [H|(k & Hk & H)]; [exists i|exists k]; simpl; auto. }
    destruct (Rltb_spec (snd j) (fst i)) as [B|B].
    { destruct (IH i t Hi Hl') as [I1 I2]. split; [|intros k [<-|Hk]; auto]. unfold in_spans in *. split.
      - intros (k & [<-|Hk] & H); [right; exists j; simpl; auto|]. destruct (proj1 I1 (ex_intro _ k (conj Hk H))) as [X|(m & Hm & X)]; [left; auto|]. right. exists m; simpl; auto.
      - intros [H|(k & [<-|Hk] & H)].
        + destruct (proj2 I1 (or_introl H)) as (m & Hm & X). exists m; simpl; auto.
        + exists j; simpl; auto.
        + destruct (proj2 I1 (or_intror (ex_intro _ k (conj Hk H)))) as (m & Hm & X). exists m; simpl; auto. }
    destruct (IH (nmin (fst i) (fst j), nmax (snd i) (snd j)) t) as [I1 I2]; auto.
    { cbn [fst snd]. unfold nmin, nmax. nR. destruct (Rleb_spec (fst i) (fst j)), (Rleb_spec (snd i) (snd j)); lra. }
    split; auto. rewrite I1. cbn [fst snd].
    assert (E : (nmin (fst i) (fst j) <= t <= nmax (snd i) (snd j)) <-> (fst i <= t <= snd i) \/ (fst j <= t <= snd j)).
    { unfold nmin, nmax. nR. destruct (Rleb_spec (fst i) (fst j)), (Rleb_spec (snd i) (snd j)); lra. }
    rewrite E. unfold in_spans. split.
    + intros [[H|H]|(k & Hk & H)]; auto; right; [exists j|exists k]; simpl; auto.
    + intros [H|(k & [<-|Hk] & H)]; auto. right. eauto.
Qed.
Lemma spans_spec pieces (s : seg R) : (forall t, in_spans (spans pieces s) t <-> 0 <= t <= 1 /\ in_pieces pieces (at_ s t)) /\
  (forall j, In j (spans pieces s) -> fst j <= snd j).
Proof.
  induction pieces as [|pc pieces IH]; cbn [spans fold_right].
  - split; [|intros j []]. intros t. unfold in_spans, in_pieces. split; [intros (i & [] & _)|intros (_ & pc & [] & _)].
  - destruct IH as [IH1 IH2]. fold (spans pieces s). pose proof (clip_spec s pc) as C.
    assert (U : forall t, in_pieces (pc :: pieces) (at_ s t) <-> Forall (fun h => in_half h (at_ s t)) pc \/ in_pieces pieces (at_ s t)).
    { intros t. unfold in_pieces. split.
      - intros (q & [<-|Hq] & H); eauto.
      - intros [H|(q & Hq & H)]; [exists pc|exists q]; simpl; auto. }
    destruct (clip s pc) as [[lo hi]|] eqn:E.
    + pose proof (clip_nonempty _ _ _ _ E) as L. split.
      * intros t. destruct (ins_spec (spans pieces s) (lo, hi) t L IH2) as [I _]. rewrite I, IH1, U. cbn [fst snd].
        specialize (C t). cbn [within] in C. tauto.
      * intros j. destruct (ins_spec (spans pieces s) (lo, hi) 0 L IH2) as [_ I]. apply I.
    + split; auto. intros t. rewrite IH1, U. specialize (C t). cbn [within] in C. tauto.
Qed.

Definition span_point (s : seg R) (i : R * R) (x : Pt) : Prop := exists t, fst i <= t <= snd i /\ x = along (fst s) (snd s) t.
Lemma seg_point (s : seg R) x : seg_region s x <-> exists t, 0 <= t <= 1 /\ x = at_ s t.
Proof.
  unfold seg_region, on_seg. split; intros (t & Ht & E); exists t; split; auto; rewrite at_along in *; auto.
Qed.
Lemma along_same (a : Pt) t : along a a t = a.
Proof. destruct a; unv; apply pair_eq; ring. Qed.
Lemma along_inj (a b : Pt) t t' : a <> b -> along a b t = along a b t' -> t = t'.
Proof.
  destruct a as [a1 a2], b as [b1 b2]. unv. intros N E. injection E as E1 E2.
  assert (X : (t - t') * (b1 - a1) = 0) by lra. assert (Y : (t - t') * (b2 - a2) = 0) by lra.
  destruct (Req_dec (t - t') 0) as [Z|Z]; [lra|]. exfalso. apply N.
  apply Rmult_integral in X as [X|X]; [lra|]. apply Rmult_integral in Y as [Y|Y]; [lra|]. apply pair_eq; lra.
Qed.
Lemma along_along (a b : Pt) lo hi u : along (along a b lo) (along a b hi) u = along a b (lo + u * (hi - lo)).
Proof. destruct a, b; unv; apply pair_eq; ring. Qed.
Lemma on_seg_span (a b : Pt) lo hi x : lo <= hi -> (on_seg (along a b lo) (along a b hi) x <-> exists t, lo <= t <= hi /\ x = along a b t).
Proof.
  intros L. split.
  - intros (u & Hu & ->). rewrite along_along. exists (lo + u * (hi - lo)). split; auto. split; nra.
  - intros (t & Ht & ->). destruct (Req_dec lo hi) as [E|E].
    + exists 0. split; [lra|]. rewrite along_along. f_equal. lra.
    + exists ((t - lo) / (hi - lo)). rewrite along_along. split.
      * assert (0 < hi - lo) by lra. split.
        -- apply Rmult_le_reg_r with (hi - lo); auto. unfold Rdiv. rewrite Rmult_assoc, Rinv_l by lra. lra.
        -- apply Rmult_le_reg_r with (hi - lo); auto. unfold Rdiv. rewrite Rmult_assoc, Rinv_l by lra. lra.
      * f_equal. field. lra.
Qed.
Lemma span_part_region (s : seg R) i x : fst i <= snd i -> (part_region (span_part s i) x <-> span_point s i x).
Proof.
  intros L. unfold span_part, span_point. nR. destruct (Reqb (fst i) (snd i)) eqn:E; cbn [orb].
  - apply Reqb_true in E. cbn [part_region]. rewrite at_along. split.
    + intros ->. exists (fst i). split; [lra|auto].
    + intros (t & Ht & ->). f_equal. lra.
  - destruct (pt_eqb (fst s) (snd s)) eqn:D.
    + apply pt_eqb_true in D. cbn [part_region]. rewrite at_along, D. setoid_rewrite along_same. split; [|intros (t & _ & ->); auto].
      intros ->. exists (fst i). split; [lra|auto].
    + cbn [part_region]. rewrite !at_along. rewrite <- on_seg_span by auto. unfold polyline. cbn [tl combine In]. split.
      * intros [[<-|[<-|[]]]|(a & b & [E'|[]] & H)].
        -- apply on_seg_l.
        -- apply on_seg_r.
        -- injection E' as <- <-. auto.
      * intros H. right. eexists _, _. split; [left; reflexivity|exact H].
Qed.
Lemma classify_region ps x : geom_region (classify ps) x <-> exists p, In p ps /\ part_region p x.
Proof.
  assert (ML : forall ps, forallb is_line ps = true -> (geom_region (GMultiLine (map coords_of ps)) x <-> exists p, In p ps /\ part_region p x)).
  { intros qs H. rewrite forallb_forall in H. cbn [geom_region]. split.
    - intros (l & Hl & P). apply in_map_iff in Hl as (p & <- & Hp). exists p. split; auto. specialize (H p Hp). destruct p; [discriminate|exact P].
    - intros (p & Hp & P). specialize (H p Hp). destruct p; [discriminate|]. exists coords. split; auto. apply in_map_iff. exists (PLine coords). auto. }
  assert (MP : forall ps, forallb (fun p => negb (is_line p)) ps = true -> (geom_region (GOther (concat (map coords_of ps))) x <-> exists p, In p ps /\ part_region p x)).
  { intros qs H. rewrite forallb_forall in H. cbn [geom_region]. rewrite in_concat. split.
    - intros (l & Hl & P). apply in_map_iff in Hl as (p & <- & Hp). exists p. split; auto. specialize (H p Hp). destruct p; [|discriminate].
      destruct P as [<-|[]]. reflexivity.
    - intros (p & Hp & P). specialize (H p Hp). destruct p; [|discriminate]. exists [p]. split; [|cbn in *; auto].
      apply in_map_iff. exists (PPoint p). auto. }
  assert (Gen : geom_region (if forallb is_line ps then GMultiLine (map coords_of ps)
           else if forallb (fun p => negb (is_line p)) ps then GOther (concat (map coords_of ps)) else GCollection ps) x <-> exists p, In p ps /\ part_region p x).
  { destruct (forallb is_line ps) eqn:E1; [auto|]. destruct (forallb (fun p => negb (is_line p)) ps) eqn:E2; [auto|]. reflexivity. }
  destruct ps as [|p [|q r]].
  - cbn. split; [tauto|intros (p & [] & _)].
  - destruct p as [q|c]; [exact Gen|]. cbn. split; [intros H; exists (PLine c); auto|intros (p & [<-|[]] & H); auto].
  - destruct p; exact Gen.
Qed.
Lemma classify_empty (ps : list (part R)) : classify ps = GEmpty <-> ps = [].
Proof.
  split; [|intros ->; reflexivity]. destruct ps as [|p [|q r]]; auto; unfold classify; destruct p;
    repeat match goal with |- context [if ?b then _ else _] => destruct b end; try discriminate; auto.
Qed.
Lemma seg_halves_spec (a b x : pt R) : Forall (fun h => in_half h x) (seg_halves a b) <-> on_seg a b x.
Proof.
  unfold seg_halves. destruct (pt_eqb a b) eqn:E.
  - apply pt_eqb_true in E. subst b. rewrite !Forall_cons_iff. unfold in_half, hval. rewrite !n0_R, !n1_R. nR. destruct a as [a1 a2], x as [x1 x2]. cbn [fst snd].
    split.
    + intros (A & B & C & D & _). exists 0. split; [lra|]. rewrite along_same. apply pair_eq; lra.
    + intros (t & _ & Ex). rewrite along_same in Ex. injection Ex as -> ->. repeat split; try lra. constructor.
  - assert (Ne : a <> b) by (intros H; apply (proj2 (pt_eqb_true a b)) in H; congruence). rewrite !Forall_cons_iff. unfold in_half. rewrite !left_of_area2.
    assert (Aa : forall p q y : pt R, hval (ahead_of p q) y = dot (vsub q p) (vsub y p)).
    { intros [p1 p2] [q1 q2] [y1 y2]. unfold hval, ahead_of. nR. unv. ring. }
    rewrite !Aa. split.
    + intros (A & B & C & D & _). exists (dot (vsub b a) (vsub x a) / norm2 (vsub b a)).
      assert (P : 0 < norm2 (vsub b a)).
      { destruct (Rle_lt_or_eq_dec _ _ (norm2_nonneg (vsub b a))) as [P|P]; auto. exfalso. apply Ne. clear - P.
        destruct a as [a1 a2], b as [b1 b2]. unv. destruct (Rplus_sqr_eq_0 (b1 - a1) (b2 - a2) (eq_sym P)). apply pair_eq; lra. }
      assert (Z : cross (vsub b a) (vsub x a) = 0).
      { destruct a, b, x. unv. lra. }
      assert (Dn : dot (vsub b a) (vsub x a) <= norm2 (vsub b a)).
      { destruct a, b, x. unv. lra. }
      split.
      * split; apply Rmult_le_reg_r with (norm2 (vsub b a)); auto; unfold Rdiv; rewrite ?Rmult_assoc, ?Rinv_l by lra; lra.
      * destruct a as [a1 a2], b as [b1 b2], x as [x1 x2]. clear - P Z. unv. 
        apply pair_eq.
        -- apply Rmult_eq_reg_r with ((b1 - a1) * (b1 - a1) + (b2 - a2) * (b2 - a2)); [|lra]. field_simplify; [|lra]. 
           assert (Z2 : ((b1 - a1) * (x2 - a2) - (b2 - a2) * (x1 - a1)) * (b2 - a2) = 0) by (rewrite Z; ring). lra.
        -- apply Rmult_eq_reg_r with ((b1 - a1) * (b1 - a1) + (b2 - a2) * (b2 - a2)); [|lra]. field_simplify; [|lra]. 
           assert (Z2 : ((b1 - a1) * (x2 - a2) - (b2 - a2) * (x1 - a1)) * (b1 - a1) = 0) by (rewrite Z; ring). lra.
    + intros (t & Ht & ->). pose proof (norm2_nonneg (vsub b a)) as P.
      assert (E1 : area2 a b (along a b t) = 0) by (destruct a, b; unv; ring).
      assert (E2 : area2 b a (along a b t) = 0) by (destruct a, b; unv; ring).
      assert (E3 : dot (vsub b a) (vsub (along a b t) a) = t * norm2 (vsub b a)) by (destruct a, b; unv; ring).
      assert (E4 : dot (vsub a b) (vsub (along a b t) b) = (1 - t) * norm2 (vsub b a)) by (destruct a, b; unv; ring).
      rewrite E1, E2, E3, E4. split; [lra|]. split; [lra|]. split; [apply Rmult_le_pos; lra|]. split; [apply Rmult_le_pos; lra|]. constructor.
Qed.

(** *** the interior of a triangle *)
Lemma hull3 (a b c x : Pt) : in_hull [a; b; c] x <-> exists u v w, 0 <= u /\ 0 <= v /\ 0 <= w /\ u + v + w = 1 /\
  x = vadd (smul u a) (vadd (smul v b) (smul w c)).
Proof.
  unfold in_hull. split.
  - intros (ws & L & F & Su & E). destruct ws as [|u [|v [|w [|z ws]]]]; try discriminate.
    rewrite !Forall_cons_iff in F. destruct F as (Fu & Fv & Fw & _). cbn in Su, E. exists u, v, w.
    split; [lra|]. split; [lra|]. split; [lra|]. split; [lra|]. rewrite <- E. destruct a, b, c; unv. apply pair_eq; ring.
  - intros (u & v & w & Hu & Hv & Hw & S1 & ->). exists [u; v; w].
    refine (conj eq_refl (conj _ (conj _ _))).
    + repeat (apply Forall_cons; [assumption|]). apply Forall_nil.
    + cbn. lra.
    + cbn. destruct a, b, c; unv. apply pair_eq; ring.
Qed.
Lemma hull3_area (a b c x : Pt) : in_hull [a; b; c] x -> exists u v w, 0 <= u /\ 0 <= v /\ 0 <= w /\ u + v + w = 1 /\
  area2 a b x = w * area2 a b c /\ area2 b c x = u * area2 a b c /\ area2 c a x = v * area2 a b c.
Proof.
  intros H. apply hull3 in H as (u & v & w & Hu & Hv & Hw & S1 & ->). exists u, v, w. assert (u = 1 - v - w) as -> by lra.
  split; [lra|]. split; [lra|]. split; [lra|]. split; [lra|]. destruct a, b, c. unv. split; [ring|]. split; ring.
Qed.
Lemma area_hull3 (a b c x : Pt) : 0 < area2 a b c -> 0 <= area2 a b x -> 0 <= area2 b c x -> 0 <= area2 c a x -> in_hull [a; b; c] x.
Proof.
  intros D A B C. apply hull3. exists (area2 b c x / area2 a b c), (area2 c a x / area2 a b c), (area2 a b x / area2 a b c).
  assert (Sm : area2 a b x + area2 b c x + area2 c a x = area2 a b c) by (destruct a, b, c, x; unv; ring).
  assert (I : 0 < / area2 a b c) by (apply Rinv_0_lt_compat; auto).
  split; [unfold Rdiv; nra|]. split; [unfold Rdiv; nra|]. split; [unfold Rdiv; nra|]. split.
  - rewrite <- Sm. field. lra.
  - destruct a as [a1 a2], b as [b1 b2], c as [c1 c2], x as [x1 x2]. unv. apply pair_eq; field; lra.
Qed.
Lemma hull3_swap (a b c x : Pt) : in_hull [a; b; c] x <-> in_hull [a; c; b] x.
Proof.
  rewrite !hull3. split; intros (u & v & w & Hu & Hv & Hw & S1 & ->); exists u, w, v; repeat split; try lra; destruct a, b, c; unv; apply pair_eq; ring.
Qed.
Lemma area_near (a b v x : Pt) : area2 a b v - norm (vsub b a) * dist v x <= area2 a b x.
Proof.
  assert (E : area2 a b x = area2 a b v + cross (vsub b a) (vsub x v)) by (destruct a, b, v, x; unv; ring).
  rewrite E. assert (C : Rabs (cross (vsub b a) (vsub x v)) <= norm (vsub b a) * dist v x).
  { unfold dist. replace (norm (vsub v x)) with (norm (vsub x v)).
    2:{ unfold norm. f_equal. destruct v, x; unv; ring. }
    set (p := vsub b a). set (q := vsub x v). unfold norm. rewrite <- sqrt_mult by apply norm2_nonneg.
    rewrite <- sqrt_Rsqr_abs. apply sqrt_le_1; [apply Rle_0_sqr|apply Rmult_le_pos; apply norm2_nonneg|].
    destruct p as [p1 p2], q as [q1 q2]. unfold Rsqr. unv. assert (0 <= (p1 * q1 + p2 * q2) * (p1 * q1 + p2 * q2)) by apply Rle_0_sqr. lra. }
  pose proof (Rle_abs (- cross (vsub b a) (vsub x v))). rewrite Rabs_Ropp in H. lra.
Qed.
Lemma norm_ge0 (p : Pt) : 0 <= norm p.
Proof. apply sqrt_pos. Qed.
Lemma strict_deep (a b c v : Pt) : 0 < area2 a b v -> 0 < area2 b c v -> 0 < area2 c a v -> deep_inside [a; b; c] v.
Proof.
  intros A B C.
  assert (Sm : area2 a b v + area2 b c v + area2 c a v = area2 a b c) by (destruct a, b, c, v; unv; ring).
  set (m := Rmin (area2 a b v) (Rmin (area2 b c v) (area2 c a v))).
  assert (Hm : 0 < m /\ m <= area2 a b v /\ m <= area2 b c v /\ m <= area2 c a v).
  { unfold m. split; [repeat apply Rmin_glb_lt; auto|]. split; [apply Rmin_l|]. split; (eapply Rle_trans; [apply Rmin_r|]); [apply Rmin_l|apply Rmin_r]. }
  set (n := norm (vsub b a) + norm (vsub c b) + norm (vsub a c) + 1).
  pose proof (norm_ge0 (vsub b a)). pose proof (norm_ge0 (vsub c b)). pose proof (norm_ge0 (vsub a c)).
  assert (Hn : 0 < n) by (unfold n; lra).
  exists (m / n). split; [apply Rdiv_lt_0_compat; tauto|]. intros x Hx.
  assert (Hd : n * dist v x < m).
  { apply Rmult_lt_compat_l with (r := n) in Hx; auto. replace (n * (m / n)) with m in Hx by (field; lra). auto. }
  assert (D0 : 0 <= dist v x) by apply sqrt_pos.
  assert (Near : forall p q, norm (vsub q p) <= n -> m <= area2 p q v -> 0 <= area2 p q x).
  { intros p q L1 L2. pose proof (area_near p q v x). assert (norm (vsub q p) * dist v x <= n * dist v x) by (apply Rmult_le_compat_r; auto). lra. }
  apply area_hull3; [lra| | |]; apply Near; unfold n; try lra; tauto.
Qed.
(** a point at distance below [r] from [v], to the right of a -> b *)
Lemma step_right (a b v : Pt) r : 0 < r -> a <> b -> exists x, dist v x < r /\ area2 a b x < area2 a b v.
Proof.
  intros Hr Ne. set (d := vsub b a).
  assert (P : 0 < norm2 d).
  { destruct (Rle_lt_or_eq_dec _ _ (norm2_nonneg d)) as [P|P]; auto. exfalso. apply Ne. unfold d in P.
    destruct a as [a1 a2], b as [b1 b2]. unv. destruct (Rplus_sqr_eq_0 (b1 - a1) (b2 - a2) (eq_sym P)). apply pair_eq; lra. }
  set (e := r / (2 * (norm d + 1))). pose proof (norm_ge0 d) as Nd.
  assert (He : 0 < e) by (apply Rdiv_lt_0_compat; lra).
  exists (vadd v (smul e (snd d, - fst d))). split.
  - assert (E : dist v (vadd v (smul e (snd d, - fst d))) = e * norm d).
    { unfold dist, norm. replace (norm2 (vsub v (vadd v (smul e (snd d, - fst d))))) with ((e * e) * norm2 d) by (destruct v, d; unv; ring).
      rewrite sqrt_mult; [|nra|apply norm2_nonneg]. rewrite sqrt_square by lra. reflexivity. }
    rewrite E. apply Rle_lt_trans with (e * (norm d + 1)); [apply Rmult_le_compat_l; lra|]. unfold e. field_simplify; lra.
  - replace (area2 a b (vadd v (smul e (snd d, - fst d)))) with (area2 a b v - e * norm2 d).
    + assert (0 < e * norm2 d) by (apply Rmult_lt_0_compat; auto). lra.
    + unfold d. destruct a, b, v; unv; ring.
Qed.
Lemma deep_strict (a b c v : Pt) : 0 < area2 a b c -> deep_inside [a; b; c] v -> 0 < area2 a b v /\ 0 < area2 b c v /\ 0 < area2 c a v.
Proof.
  intros D (r & Hr & H).
  assert (Go : forall p q, p <> q -> (forall x, in_hull [a; b; c] x -> 0 <= area2 p q x) -> 0 < area2 p q v).
  { intros p q Ne Hp. destruct (step_right p q v r Hr Ne) as (x & Hx & L). specialize (Hp x (H x Hx)). lra. }
  assert (N1 : a <> b) by (intros ->; destruct b, c; unv; lra). assert (N2 : b <> c) by (intros ->; destruct a, c; unv; lra).
  assert (N3 : c <> a) by (intros ->; destruct a, b; unv; lra).
  split; [|split]; apply Go; auto; intros x Hx; apply hull3_area in Hx as (t1 & t2 & t3 & H1 & H2 & H3 & _ & E1 & E2 & E3);
    [rewrite E1|rewrite E2|rewrite E3]; apply Rmult_le_pos; lra.
Qed.
Lemma flat_not_deep (a b c v : Pt) : area2 a b c = 0 -> ~ deep_inside [a; b; c] v.
Proof.
  intros D (r & Hr & H).
  assert (Z : forall x, dist v x < r -> area2 a b x = 0 /\ area2 b c x = 0 /\ area2 c a x = 0).
  { intros x Hx. apply H in Hx. apply hull3_area in Hx as (u & w & z & _ & _ & _ & _ & E1 & E2 & E3). rewrite E1, E2, E3, D. lra. }
  assert (V0 : dist v v < r) by (unfold dist, norm; replace (norm2 (vsub v v)) with 0 by (destruct v; unv; ring); rewrite sqrt_0; auto).
  destruct (Z v V0) as (Z1 & Z2 & Z3).
  assert (Dec : forall p q : Pt, p = q \/ p <> q).
  { intros [p1 p2] [q1 q2]. destruct (Req_dec p1 q1) as [->|N]; [|right; congruence]. destruct (Req_dec p2 q2) as [->|N]; [auto|right; congruence]. }
  destruct (Dec a b) as [->|N].
  - destruct (Dec b c) as [->|N].
    + destruct (Dec v c) as [->|N].
      * assert (Ne : c <> vadd c (1, 0)) by (destruct c; unv; intros E; injection E; lra).
        destruct (step_right c (vadd c (1, 0)) c r Hr Ne) as (x & Hx & L). apply H, hull3 in Hx as (u & w & z & _ & _ & _ & Sm & ->).
        assert (u = 1 - w - z) by lra. subst u. clear - L. destruct c; unv. lra.
      * apply H, hull3 in V0 as (u & w & z & _ & _ & _ & Sm & ->). apply N. assert (u = 1 - w - z) as -> by lra. destruct c; unv. apply pair_eq; ring.
    + destruct (step_right b c v r Hr N) as (x & Hx & L). destruct (Z x Hx) as (_ & E & _). lra.
  - destruct (step_right a b v r Hr N) as (x & Hx & L). destruct (Z x Hx) as (E & _ & _). lra.
Qed.
Lemma area2_flip (a b x : Pt) : area2 b a x = - area2 a b x.
Proof. destruct a, b, x; unv; ring. Qed.
Lemma strictly_inside_spec (a b c v : pt R) : strictly_inside [a; b; c] v = true <-> deep_inside [a; b; c] v.
Proof.
  unfold strictly_inside, positive. rewrite orb_true_iff, !andb_true_iff. rewrite n0_R. rewrite !left_of_area2. nR. rewrite !Rltb_true.
  assert (Sm : area2 a b v + area2 b c v + area2 c a v = area2 a b c) by (destruct a, b, c, v; unv; ring).
  assert (Sw : forall x y z w, deep_inside [x; y; z] w -> deep_inside [x; z; y] w).
  { intros x y z w (r & Hr & H). exists r. split; auto. intros p Hp. apply hull3_swap. auto. }
  assert (Fl : area2 a c b = - area2 a b c) by (destruct a, b, c; unv; ring).
  split.
  - intros [[[A B] C]|[[A B] C]].
    + apply strict_deep; auto.
    + apply Sw. apply strict_deep; auto.
  - intros H. destruct (Rtotal_order 0 (area2 a b c)) as [D|[D|D]].
    + left. destruct (deep_strict _ _ _ _ D H) as (A & B & C). auto.
    + exfalso. eapply flat_not_deep; eauto.
    + right. assert (D' : 0 < area2 a c b) by lra. destruct (deep_strict _ _ _ _ D' (Sw _ _ _ _ H)) as (A & B & C). auto.
Qed.

Theorem pieces_faithful pieces K : faithful (in_pieces pieces) K (pieces_world pieces K).
Proof.
  assert (Dj : forall s, spans pieces s = [] <-> forall x, seg_region s x -> ~ in_pieces pieces x).
  { intros s. destruct (spans_spec pieces s) as [S1 S2]. split.
    - intros E x Hx Px. apply seg_point in Hx as (t & Ht & ->). destruct (proj2 (S1 t) (conj Ht Px)) as (i & Hi & _). rewrite E in Hi. destruct Hi.
    - intros H. destruct (spans pieces s) as [|i l] eqn:E; auto. exfalso.
      assert (Hs : in_spans (i :: l) (fst i)).
      { exists i. split; [simpl; auto|]. pose proof (S2 i (or_introl eq_refl)). lra. }
      apply S1 in Hs as [Ht Px]. eapply H; eauto. apply seg_point. eauto. }
  constructor; cbn [pw_disjoint pw_meet pw_cross pw_in_kernel pieces_world].
  - intros s. rewrite <- Dj. destruct (spans pieces s); split; congruence.
  - intros s x. rewrite classify_region. destruct (spans_spec pieces s) as [S1 S2]. split.
    + intros (p & Hp & P). apply in_map_iff in Hp as (i & <- & Hi). apply span_part_region in P as (t & Ht & ->); auto.
      rewrite <- at_along. destruct (proj1 (S1 t)) as [H1 H2]; [exists i; auto|]. split; auto. apply seg_point. eauto.
    + intros [Hx Px]. apply seg_point in Hx as (t & Ht & ->). destruct (proj2 (S1 t) (conj Ht Px)) as (i & Hi & Hj).
      exists (span_part s i). split; [apply in_map; auto|]. apply span_part_region; auto. exists t. split; [auto|apply at_along].
  - intros s. rewrite classify_empty. rewrite <- Dj. split; [|intros ->; reflexivity]. intros H. destruct (spans pieces s); [auto|discriminate].
  - intros s s'.
    assert (C : forall x, seg_region s x /\ seg_region s' x <-> exists t, within (clip s (seg_halves (fst s') (snd s'))) t /\ x = along (fst s) (snd s) t).
    { intros x. split.
      - intros [H1 H2]. apply seg_point in H1 as (t & Ht & ->). exists t. rewrite clip_spec, seg_halves_spec. rewrite at_along in *. auto.
      - intros (t & Hc & ->). rewrite clip_spec, seg_halves_spec in Hc. destruct Hc as [Ht H2]. rewrite at_along in H2. split; auto.
        exists t. auto. }
    destruct (clip s (seg_halves (fst s') (snd s'))) as [[lo hi]|] eqn:Ec.
    + pose proof (clip_nonempty _ _ _ _ Ec) as L. cbn [within] in C. nR. destruct (Reqb lo hi) eqn:E; cbn [orb].
      * apply Reqb_true in E. subst hi. intros x. rewrite C, at_along. split; [intros (t & Ht & ->); f_equal; lra|].
        intros ->. exists lo. split; [lra|auto].
      * apply Reqb_false in E. destruct (pt_eqb (fst s) (snd s)) eqn:Ep.
        -- apply pt_eqb_true in Ep. intros x. rewrite C, at_along, Ep. setoid_rewrite along_same. split; [intros (t & _ & ->); auto|].
           intros ->. exists lo. split; [lra|auto].
        -- assert (Ne : fst s <> snd s) by (intros X; apply (proj2 (pt_eqb_true _ _)) in X; congruence). rewrite !at_along. split.
           ++ intros X. apply along_inj in X; auto.
           ++ intros x. rewrite C, on_seg_span by auto. reflexivity.
    + intros x Hx. apply C in Hx as (t & [] & _).
  - intros L v. destruct K as [|a [|b [|c [|d K]]]]; try discriminate. apply strictly_inside_spec.
Qed.
