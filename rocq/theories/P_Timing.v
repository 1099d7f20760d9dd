(** Property C130: the timing vector of starshaped_hull/cluster_and_starify.py:cluster_and_starify. *)
From Coq Require Import Reals List Bool Arith Lia Lra.
From Verif Require Import Num M_Starify M_Timing.
Import ListNotations.
Local Open Scope R_scope.

(** a stretch of work: what for, and the numbers of the readings at its begin and end *)
Inductive part : Type := Clustering | Kernels | Hulls | Convexity.
Definition part_eqb (p q : part) : bool := match p, q with Clustering, Clustering | Kernels, Kernels | Hulls, Hulls | Convexity, Convexity => true | _, _ => false end.
Definition stretch : Type := (part * nat * nat)%type.
(** the milliseconds spent on a part *)
Fixpoint spent (clock : nat -> R) (p : part) (st : list stretch) : R :=
  match st with [] => 0 | (q, a, b) :: r => (if part_eqb p q then 1000 * (clock b - clock a) else 0) + spent clock p r end.
Definition stretches_of (p : part) (st : list stretch) : nat := length (filter (fun s => part_eqb p (fst (fst s))) st).
(** the stretches follow each other, none overlaps the next; all their readings are among those from lo up to, not including, hi *)
Fixpoint in_turn (lo : nat) (st : list stretch) (hi : nat) : Prop :=
  match st with [] => (lo <= hi)%nat | (_, a, b) :: r => (lo <= a < b)%nat /\ in_turn (S b) r hi end.
(** clusters built after the first iteration *)
Definition built (s : script) : nat := length (filter (fun w => match w with Built => true | _ => false end) (concat (s_rounds s))).

Lemma spent_app clock p st st' : spent clock p (st ++ st') = spent clock p st + spent clock p st'.
Proof. induction st as [|((q, a), b) r IH]; cbn [app spent]; [ring|]. rewrite IH. ring. Qed.
Lemma of_app p st st' : stretches_of p (st ++ st') = (stretches_of p st + stretches_of p st')%nat.
Proof. unfold stretches_of. rewrite filter_app, app_length. reflexivity. Qed.
Lemma turn_app st : forall lo mid hi st', in_turn lo st mid -> in_turn mid st' hi -> in_turn lo (st ++ st') hi.
Proof.
  induction st as [|((q, a), b) r IH]; intros lo mid hi st' H H'; cbn [app in_turn] in *.
  - destruct st' as [|((q', a'), b') r']; cbn [in_turn] in *; [lia|]. intuition lia.
  - destruct H as (A & B). split; [exact A|]. eapply IH; eauto.
Qed.
Lemma total_app l x : total (l ++ [x]) = total l + x. Proof. unfold total. rewrite fold_left_app. reflexivity. Qed.

Section Calls.
  Variable clock : nat -> R.
  Variable limit : option R.
  Record Inv (k : nat) (ini : R) (all : list times) (t : times) (b : nat) (st : list stretch) : Prop := {
    i_turn : in_turn 0 st k;
    i_c : spent clock Clustering st = total (map cluster_time all);
    i_k : spent clock Kernels st = ini + total (map kernel_time all) + kernel_time t;
    i_h : spent clock Hulls st = total (map hull_time all) + hull_time t;
    i_v : spent clock Convexity st = 0;
    n_c : stretches_of Clustering st = length all;
    n_k : stretches_of Kernels st = S b;
    n_h : stretches_of Hulls st = (3 * b)%nat;
    n_v : stretches_of Convexity st = 0%nat }.
  Lemma inv_later k k' ini all t b st : (k <= k')%nat -> Inv k ini all t b st -> Inv k' ini all t b st.
  Proof. intros H [A]. split; auto. rewrite <- (app_nil_r st). apply (turn_app st 0 k k' []); auto. Qed.
  Lemma inv_build k ini all t b st : Inv k ini all t b st -> exists st', Inv (k + 8) ini all (build_times clock t k) (S b) st'.
  Proof.
    intros [A C K H V NC NK NH NV]. exists (st ++ [(Kernels, k, k + 1); (Hulls, k + 2, k + 3); (Hulls, k + 4, k + 5); (Hulls, k + 6, k + 7)]%nat).
    split; rewrite ?spent_app, ?of_app; cbn [spent part_eqb stretches_of filter fst length]; rewrite ?C, ?K, ?H, ?V, ?NC, ?NK, ?NH, ?NV.
    - apply (turn_app _ _ k); auto. cbn [in_turn]. lia.
    - ring.
    - unfold build_times, toc. cbn [kernel_time]. ring.
    - unfold build_times, hull_time, toc. cbn [ker_sel_time hull_compute_time star_obj_time]. ring.
    - ring.
    - unfold stretches_of. cbn. lia.
    - unfold stretches_of. cbn. lia.
    - unfold stretches_of. cbn. lia.
    - unfold stretches_of. cbn. lia.
  Qed.
  Lemma inv_cluster k ini all t b st : Inv k ini all t b st -> exists st', Inv (k + 2) ini (all ++ [clustering_times clock t k]) no_times b st'.
  Proof.
    intros [A C K H V NC NK NH NV]. exists (st ++ [(Clustering, k, k + 1)]%nat).
    split; rewrite ?spent_app, ?of_app, ?map_app; cbn [map]; rewrite ?total_app, ?app_length; cbn [spent part_eqb length]; rewrite ?C, ?K, ?H, ?V, ?NC, ?NK, ?NH, ?NV.
    - apply (turn_app _ _ k); auto. cbn [in_turn]. lia.
    - unfold clustering_times, toc. cbn [cluster_time]. ring.
    - unfold clustering_times, no_times. cbn [kernel_time]. ring.
    - unfold clustering_times, no_times, hull_time. cbn [ker_sel_time hull_compute_time star_obj_time]. ring.
    - ring.
    - reflexivity.
    - unfold stretches_of. cbn. lia.
    - unfold stretches_of. cbn. lia.
    - unfold stretches_of. cbn. lia.
  Qed.
  Lemma inv_first l : forall k ini all t b st, Inv k ini all t b st -> exists st', Inv (snd (first_times clock l t k)) ini all (fst (first_times clock l t k)) (b + length l) st'.
  Proof.
    induction l as [|x r IH]; intros k ini all t b st I; cbn [first_times fst snd length]; [exists st; rewrite Nat.add_0_r; exact I|].
    destruct (inv_build _ _ _ _ _ _ I) as (st' & I'). destruct (IH _ _ _ _ _ _ I') as (st'' & I''). exists st''. replace (b + S (length r))%nat with (S b + length r)%nat by lia. exact I''.
  Qed.
  Definition nb (l : list work) : nat := length (filter (fun w => match w with Built => true | _ => false end) l).
  Lemma inv_round l : forall k ini all t b st t' k', Inv k ini all t b st -> later_times clock l t k = inr (t', k') -> exists st', Inv k' ini all t' (b + nb l) st'.
  Proof.
    induction l as [|w r IH]; intros k ini all t b st t' k' I E; cbn [later_times] in E.
    - injection E as <- <-. exists st. unfold nb. cbn. rewrite Nat.add_0_r. exact I.
    - destruct w; [eapply IH; eauto|discriminate|]. destruct (inv_build _ _ _ _ _ _ I) as (st' & I'). destruct (IH _ _ _ _ _ _ _ _ I' E) as (st'' & I'').
      exists st''. replace (b + nb (Built :: r))%nat with (S b + nb r)%nat by (unfold nb; cbn; lia). exact I''.
  Qed.
  Lemma inv_loop rs : forall k ini all b st all' k', Inv k ini all no_times b st -> loop_times clock limit rs all k = inr (all', k') ->
    length all' = (length all + length rs)%nat /\ exists st', Inv k' ini all' no_times (b + nb (concat rs)) st'.
  Proof.
    induction rs as [|l r IH]; intros k ini all b st all' k' I E; cbn [loop_times] in E.
    - injection E as <- <-. cbn. split; [lia|]. exists st. unfold nb. cbn. rewrite Nat.add_0_r. exact I.
    - destruct (late clock limit k); [discriminate|]. destruct (later_times clock l no_times (S k)) as [|(t, k1)] eqn:E1; [discriminate|].
      assert (I' : Inv (S k) ini all no_times b st) by (apply (inv_later k (S k)); [lia|exact I]).
      destruct (inv_round l (S k) ini all no_times b st t k1 I' E1) as (st1 & I1). destruct (inv_cluster _ _ _ _ _ _ I1) as (st2 & I2).
      destruct (IH _ _ _ _ _ _ _ I2 E) as (L & st3 & I3). rewrite app_length in L. cbn [length] in L |- *. split; [lia|]. exists st3.
      replace (b + nb (concat (l :: r)))%nat with (b + nb l + nb (concat r))%nat; [exact I3|]. unfold nb. cbn [concat]. rewrite filter_app, app_length. lia.
  Qed.
  Lemma convex_spec l : forall j k, (j < k)%nat -> let '(f, c, k') := convex_times clock limit l j k in
    f <> INCOMPLETE /\ exists e, (j < e)%nat /\ k' = S e /\ c = 1000 * (clock e - clock j).
  Proof.
    induction l as [|[] r IH]; intros j k Hk; cbn [convex_times].
    - split; [discriminate|]. exists k. split; [lia|]. split; [reflexivity|]. unfold toc. ring.
    - apply IH. exact Hk.
    - destruct (late clock limit k).
      + split; [discriminate|]. exists (k + 1)%nat. split; [lia|]. split; [lia|]. unfold toc. ring.
      + apply IH. lia.
  Qed.
End Calls.

(** C130: the four entries are the times spent on stretches of the call that do not overlap: on clustering once per iteration, on kernels once before the first iteration and once per
    cluster built, on hulls three times per cluster built, and on the convex hulls once if they are asked for. The default result has only zeros. *)
Theorem C130_entries : forall clock limit s, let r := call_timing clock limit s in
  (t_flag r = INCOMPLETE -> vector r = [0; 0; 0; 0]) /\
  (t_flag r <> INCOMPLETE -> t_n_iter r = S (length (s_rounds s)) /\ exists st, in_turn 0 st (readings r) /\ vector r = map (fun p => spent clock p st) [Clustering; Kernels; Hulls; Convexity] /\
     stretches_of Clustering st = t_n_iter r /\ stretches_of Kernels st = (1 + (length (s_free s) + built s))%nat /\ stretches_of Hulls st = (3 * (length (s_free s) + built s))%nat /\
     stretches_of Convexity st = match s_convex s with Some _ => 1 | None => 0 end%nat).
Proof.
  intros clock limit s. cbv zeta. unfold call_timing. destruct (prepare_clock clock limit (s_free s) 1) as [k|k] eqn:Ep; [split; [reflexivity|cbn; congruence]|].
  assert (K1 : (1 <= k)%nat). { clear - Ep. revert Ep. generalize 1%nat. induction (s_free s) as [|f r IH]; intros n E; cbn in E; [injection E; lia|]. destruct (late clock limit n); [discriminate|]. destruct f; [|discriminate]. apply IH in E. lia. }
  assert (I0 : Inv clock (S k) (toc clock (clock 0%nat) k) [] no_times 0 [(Kernels, 0, k)%nat]). { split; cbn; try lra; try lia. unfold toc, total. cbn. ring. unfold hull_time, total. cbn. ring. }
  destruct (first_times clock (s_free s) no_times (S k)) as (t, k1) eqn:Ef. destruct (inv_first clock (s_free s) _ _ _ _ _ _ I0) as (st1 & I1). rewrite Ef in I1. cbn [fst snd] in I1.
  destruct (inv_cluster _ _ _ _ _ _ _ I1) as (st2 & I2). cbn [app] in I2. destruct (loop_times clock limit (s_rounds s) [clustering_times clock t k1] (k1 + 2)) as [(n, k2)|(all, k2)] eqn:El; [split; [reflexivity|cbn; congruence]|].
  destruct (inv_loop clock limit _ _ _ _ _ _ _ _ I2 El) as (L & st3 & [A C K H V NC NK NH NV]). cbn [length] in L. change (nb (concat (s_rounds s))) with (built s) in *.
  assert (Z1 : kernel_time no_times = 0) by reflexivity. assert (Z2 : hull_time no_times = 0) by (unfold hull_time; cbn; ring). rewrite Z1 in K. rewrite Z2 in H.
  destruct (s_convex s) as [l|].
  - destruct (convex_times clock limit l k2 (S k2)) as ((f, c), k3) eqn:Ec. pose proof (convex_spec clock limit l k2 (S k2) ltac:(lia)) as X. rewrite Ec in X. destruct X as (Nf & e & He & -> & Ev).
    cbn [t_flag vector t_n_iter readings]. split; [congruence|]. intros _. split; [lia|]. exists (st3 ++ [(Convexity, k2, e)]). rewrite !of_app.
    split; [apply (turn_app _ _ k2); auto; cbn [in_turn]; lia|]. split.
    + cbn [map]. rewrite !spent_app, C, K, H, V. cbn [spent part_eqb]. unfold timing_vec. rewrite Ev. repeat (f_equal; try ring).
    + rewrite NC, NK, NH, NV. unfold stretches_of. cbn. lia.
  - cbn [t_flag vector t_n_iter readings]. split; [discriminate|]. intros _. split; [lia|]. exists st3. split; [exact A|]. split.
    + cbn [map]. rewrite C, K, H, V. unfold timing_vec. repeat (f_equal; try ring).
    + rewrite NC, NK, NH, NV. lia.
Qed.
Print Assumptions C130_entries.
(** if the clock is not set back during the call, no entry is negative and together they are at most the time between the first and the last reading *)
Theorem C130_bounded : forall clock limit s, (forall i j, (i <= j)%nat -> clock i <= clock j) -> let r := call_timing clock limit s in
  length (vector r) = 4%nat /\ Forall (fun x => 0 <= x) (vector r) /\ total (vector r) <= 1000 * (clock (readings r - 1)%nat - clock 0%nat).
Proof.
  intros clock limit s Mono r. destruct (C130_entries clock limit s) as (D & E). fold r in D, E.
  assert (FF : t_flag r = INCOMPLETE \/ t_flag r <> INCOMPLETE) by (destruct (t_flag r); [left; reflexivity|right; discriminate|right; discriminate]).
  destruct FF as [F|F].
  - rewrite (D F). split; [reflexivity|]. split; [repeat (apply Forall_cons; [lra|]); apply Forall_nil|]. unfold total. cbn. pose proof (Mono 0%nat (readings r - 1)%nat ltac:(lia)). lra.
  - destruct (E F) as (_ & st & T & V & _). rewrite V. split; [reflexivity|].
    assert (P : forall p lo hi st, in_turn lo st hi -> 0 <= spent clock p st).
    { clear - Mono. intros p lo hi st. revert lo. induction st as [|((q, a), b) l IH]; intros lo T; cbn [spent]; [lra|]. destruct T as (A & B). apply IH in B. pose proof (Mono a b ltac:(lia)). destruct (part_eqb p q); lra. }
    split; [cbn [map]; repeat (apply Forall_cons; [eapply P; eauto|]); apply Forall_nil|].
    assert (Q : forall lo hi st, in_turn lo st hi -> spent clock Clustering st + spent clock Kernels st + spent clock Hulls st + spent clock Convexity st <= 1000 * (clock (hi - 1)%nat - clock (Nat.min lo (hi - 1)))).
    { clear - Mono. intros lo hi st. revert lo. induction st as [|((q, a), b) l IH]; intros lo T; cbn [spent].
      - cbn [in_turn] in T. pose proof (Mono (Nat.min lo (hi - 1)) (hi - 1)%nat ltac:(lia)). lra.
      - destruct T as (A & B). assert (S b <= hi)%nat. { clear - B. revert B. generalize (S b). induction l as [|((q, x), y) l IH]; intros n B; cbn in B; [lia|]. destruct B as (B1 & B2). apply IH in B2. lia. }
        apply IH in B. pose proof (Mono (Nat.min lo (hi - 1)) a ltac:(lia)). pose proof (Mono b (Nat.min (S b) (hi - 1)) ltac:(lia)).
        destruct q; cbn [part_eqb]; lra. }
    apply Q in T. rewrite Nat.min_l in T by lia. unfold total. cbn [map fold_left]. lra.
Qed.
Print Assumptions C130_bounded.
(** the flag within the limit: INCOMPLETE exactly if robot or goal is not free of an obstacle or some cluster has no kernel, otherwise COMPLETE *)
Theorem C130_in_time : forall clock limit s, match limit with None => True | Some m => forall k, (clock k - clock 0%nat) * 1000 <= m end -> let r := call_timing clock limit s in
  (t_flag r = INCOMPLETE <-> In false (s_free s) \/ exists l, In l (s_rounds s) /\ In NoKernel l) /\ (t_flag r <> INCOMPLETE -> t_flag r = COMPLETE).
Proof.
  intros clock limit s L r. assert (NL : forall k, late clock limit k = false). { intros k. unfold late, toc. destruct limit as [m|]; [|reflexivity]. destruct (Rltb_spec m ((clock k - clock 0%nat) * 1000)) as [H|]; [specialize (L k); lra|reflexivity]. }
  assert (P : forall free k, match prepare_clock clock limit free k with inl _ => In false free | inr _ => ~ In false free end).
  { induction free as [|f fr IH]; intros k; cbn [prepare_clock]; [intros []|]. rewrite NL. destruct f; [|left; reflexivity]. specialize (IH (S k)). destruct (prepare_clock clock limit fr (S k)); [right; exact IH|]. intros [X|X]; [discriminate|exact (IH X)]. }
  assert (W : forall l t k, match later_times clock l t k with inl _ => In NoKernel l | inr _ => ~ In NoKernel l end).
  { induction l as [|w l IH]; intros t k; cbn [later_times]; [intros []|]. destruct w; [|left; reflexivity|].
    - specialize (IH t k). destruct (later_times clock l t k); [right; exact IH|]. intros [X|X]; [discriminate|exact (IH X)].
    - specialize (IH (build_times clock t k) (k + 8)%nat). destruct (later_times clock l _ _); [right; exact IH|]. intros [X|X]; [discriminate|exact (IH X)]. }
  assert (Q : forall rs a k, match loop_times clock limit rs a k with inl _ => exists l, In l rs /\ In NoKernel l | inr _ => ~ exists l, In l rs /\ In NoKernel l end).
  { induction rs as [|l rs IH]; intros a k; cbn [loop_times]; [intros (l & [] & _)|]. rewrite NL. specialize (W l no_times (S k)). destruct (later_times clock l no_times (S k)) as [k'|(t, k')]; [exists l; split; [left; reflexivity|exact W]|].
    specialize (IH (a ++ [clustering_times clock t k']) (k' + 2)%nat). destruct (loop_times clock limit rs _ _) as [?|?]; [destruct IH as (l' & I & N); exists l'; split; [right; exact I|exact N]|].
    intros (l' & [<-|I] & N); [exact (W N)|apply IH; exists l'; auto]. }
  assert (X : forall l j k, fst (fst (convex_times clock limit l j k)) = COMPLETE). { induction l as [|b l IH]; intros j k; cbn [convex_times]; [reflexivity|]. destruct b; [apply IH|]. rewrite NL. apply IH. }
  unfold r, call_timing. specialize (P (s_free s) 1%nat). destruct (prepare_clock clock limit (s_free s) 1) as [k|k]; [cbn [t_flag default_timing]; split; [tauto|congruence]|].
  destruct (first_times clock (s_free s) no_times (S k)) as (t, k1). specialize (Q (s_rounds s) [clustering_times clock t k1] (k1 + 2)%nat). destruct (loop_times clock limit _ _ _) as [(n, k2)|(a, k2)]; [cbn [t_flag default_timing]; split; [tauto|congruence]|].
  destruct (s_convex s) as [l|]; [|cbn [t_flag]; split; [split; [discriminate|tauto]|reflexivity]].
  specialize (X l k2 (S k2)). destruct (convex_times clock limit l k2 (S k2)) as ((f, c), k3). cbn [fst] in X. subst f. cbn [t_flag]. split; [split; [discriminate|tauto]|reflexivity].
Qed.
Print Assumptions C130_in_time.
(** past the limit: if the limit is exceeded at the check before the first obstacle, the default result is returned at once *)
Theorem C130_too_late : forall clock m s, s_free s <> [] -> m < (clock 1%nat - clock 0%nat) * 1000 -> call_timing clock (Some m) s = Timing [0; 0; 0; 0] INCOMPLETE 0 2.
Proof.
  intros clock m s NE L. unfold call_timing. destruct (s_free s) as [|f r]; [congruence|]. cbn [prepare_clock]. unfold late, toc. destruct (Rltb_spec m ((clock 1%nat - clock 0%nat) * 1000)) as [_|H]; [reflexivity|lra].
Qed.
Print Assumptions C130_too_late.
(** a limit that is first exceeded when the hulls are to be made convex leaves the four entries to be reported but with the flag MAX_COMPUTE_TIME_CONVEX_HULL, as soon as some cluster is not convex *)
Theorem C130_convex_late : forall clock m s l, s_convex s = Some l -> In false l -> t_flag (call_timing clock (Some m) s) <> INCOMPLETE -> (forall k, (1 + length (s_free s) <= k)%nat -> m < (clock k - clock 0%nat) * 1000) ->
  s_rounds s = [] /\ t_flag (call_timing clock (Some m) s) = MAX_COMPUTE_TIME_CONVEX_HULL.
Proof.
  intros clock m s l Ec I F L. unfold call_timing in F |- *. destruct (prepare_clock clock (Some m) (s_free s) 1) as [k|k] eqn:Ep; [elim F; reflexivity|].
  assert (K : (k = 1 + length (s_free s))%nat). { clear - Ep. revert Ep. generalize 1%nat. induction (s_free s) as [|f r IH]; intros n E; cbn [prepare_clock] in E; [injection E; cbn; lia|]. destruct (late clock (Some m) n); [discriminate|]. destruct f; [|discriminate]. apply IH in E. cbn [length]. lia. }
  assert (LT : forall j, (k <= j)%nat -> late clock (Some m) j = true). { intros j J. unfold late, toc. destruct (Rltb_spec m ((clock j - clock 0%nat) * 1000)) as [_|H]; [reflexivity|]. specialize (L j ltac:(lia)). lra. }
  assert (FT : forall ob t j, (j <= snd (first_times clock ob t j))%nat). { clear. induction ob as [|b ob IH]; intros t j; cbn [first_times snd]; [lia|]. specialize (IH (build_times clock t j) (j + 8)%nat). lia. }
  specialize (FT (s_free s) no_times (S k)). destruct (first_times clock (s_free s) no_times (S k)) as (t, k1). cbn [snd] in FT.
  destruct (s_rounds s) as [|rd rs]; cbn [loop_times] in F |- *; [|rewrite LT in F by lia; elim F; reflexivity]. split; [reflexivity|]. rewrite Ec.
  assert (X : forall j i, (k <= i)%nat -> fst (fst (convex_times clock (Some m) l j i)) = MAX_COMPUTE_TIME_CONVEX_HULL).
  { clear - I LT. induction l as [|b l IH]; intros j i J; [destruct I|]. cbn [convex_times]. destruct b; [apply IH; [destruct I as [E|I]; [discriminate|exact I]|exact J]|]. rewrite LT by exact J. reflexivity. }
  specialize (X (k1 + 2)%nat (S (k1 + 2)) ltac:(lia)). destruct (convex_times clock (Some m) l _ _) as ((f, c), k3). exact X.
Qed.
Print Assumptions C130_convex_late.
(** *** two obstacles that are clustered in one further iteration, with make_convex, a clock that advances by 1 s per reading, and no limit *)
Example C130_example : call_timing INR None (Script [true; true] [[Built]] (Some [false])) = Timing [2000; 6000; 9000; 2000] COMPLETE 2 36.
Proof.
  unfold call_timing, late. cbn [prepare_clock late s_free s_rounds s_convex first_times]. unfold build_times, clustering_times, toc, no_times. cbn [kernel_time ker_sel_time hull_compute_time star_obj_time cluster_time].
  cbn [loop_times late later_times Nat.add app length convex_times]. unfold build_times, clustering_times, timing_vec, hull_time, toc, total, no_times, late.
  cbn [map fold_left kernel_time ker_sel_time hull_compute_time star_obj_time cluster_time length]. rewrite !INR_IZR_INZ. cbn [Z.of_nat Pos.of_succ_nat Pos.succ Nat.add]. f_equal. repeat (f_equal; try lra).
Qed.
(** *** a clock that advances by 1 s per reading meets the hypotheses of the three statements about the limit *)
Example C130_limit_example : (forall m, m < 1000 -> call_timing INR (Some m) (Script [true] [] None) = Timing [0; 0; 0; 0] INCOMPLETE 0 2) /\
  t_flag (call_timing (fun k => INR k) (Some 1500) (Script [true] [] (Some [false]))) = MAX_COMPUTE_TIME_CONVEX_HULL /\
  t_flag (call_timing (fun _ => 7) (Some 0) (Script [true; true] [[Built]] (Some [false]))) = COMPLETE.
Proof.
  split; [|split].
  - intros m H. apply C130_too_late; [discriminate|]. cbn [INR]. lra.
  - apply (C130_convex_late INR 1500 (Script [true] [] (Some [false])) [false]); [reflexivity|left; reflexivity| |].
    + unfold call_timing. cbn [s_free s_rounds s_convex prepare_clock]. unfold late at 1. destruct (Rltb_spec 1500 (toc INR (INR 0) 1)) as [H|_]; [exfalso; revert H; unfold toc; cbn [INR]; lra|]. cbn [first_times loop_times convex_times Nat.add]. destruct (late INR (Some 1500) _); discriminate.
    + intros k K. cbn [s_free length Nat.add] in K. assert (2 <= INR k) by (change 2 with (INR 2); apply le_INR; exact K). cbn [INR]. lra.
  - apply C130_in_time; [intros k; lra|]. intros C. apply C130_in_time in C; [|intros k; lra]. destruct C as [[C|[C|[]]]|(l & [<-|[]] & [C|[]])]; discriminate.
Qed.
