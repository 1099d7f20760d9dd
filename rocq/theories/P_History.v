(** C108: the history returned by cluster_and_starify. *)
From Coq Require Import String Reals List Bool Arith ZArith Lia Permutation.
From Verif Require Import Num M_Cg M_Motion M_Obstacle M_Clusters L_Clusters P_Clusters M_StarHull M_Starify M_History L_Starify P_Starify P_StarifyResult P_StarifyTotal W_Starify P_StarifyRefuted.
Import ListNotations.

Section HistoryResult.
  Context {Obs G : Type} (M : methods Obs G) (Sh : shapely G) (setl : list nat -> list nat).
  Notation cluster := (cluster Obs G).
  Notation call := (cluster_and_starify M Sh setl).
  Hypothesis setl_ok : set_order setl.

  (** the clusters of [e'] are made of whole clusters of [e], and there are fewer of them *)
  Definition coarser (e e' : list cluster) : Prop :=
    (List.length e' < List.length e)%nat /\
    (forall c', In c' e' -> exists l, incl l e /\ l <> [] /\ c_obstacles c' = flat_map c_obstacles l) /\
    (forall c, In c e -> exists c', In c' e' /\ incl (c_obstacles c) (c_obstacles c')).

  Definition pairwise_next (l : list (list cluster)) : Prop := forall i e e', nth_error l i = Some e -> nth_error l (S i) = Some e' -> coarser e e'.
  Lemma next_snoc l e e' : pairwise_next (l ++ [e]) -> coarser e e' -> pairwise_next ((l ++ [e]) ++ [e']).
  Proof.
    intros P C i a b Ha Hb. assert (Li : (S i < List.length ((l ++ [e]) ++ [e']))%nat) by (apply nth_error_Some; congruence). rewrite !app_length in Li. cbn in Li.
    rewrite nth_error_app1 in Ha by (rewrite app_length; cbn; lia). destruct (Nat.eq_dec i (List.length l)) as [->|N].
    - rewrite nth_error_app2 in Hb by (rewrite app_length; cbn; lia). rewrite app_length in Hb. cbn [List.length] in Hb. replace (S (List.length l) - (List.length l + 1))%nat with 0%nat in Hb by lia. cbn in Hb. injection Hb as <-.
      rewrite nth_error_app2, Nat.sub_diag in Ha by lia. cbn in Ha. injection Ha as <-. exact C.
    - rewrite nth_error_app1 in Hb by (rewrite app_length; cbn; lia). apply (P i a b Ha Hb).
  Qed.
  Lemma gic_coarser e out e' : has_polygons M Sh e -> get_intersection_clusters M Sh setl e = Val (out, true) -> map c_obstacles e' = map c_obstacles out -> coarser e e'.
  Proof.
    intros P Gc Em. destruct (C65_preserves_obstacles M Sh setl setl_ok e out true P Gc) as (_ & Ln & _). specialize (Ln eq_refl).
    rewrite (gic_value M Sh setl e P) in Gc. destruct (intersections_exist _ _); [|discriminate]. injection Gc as Eo. symmetry in Eo.
    pose proof (parts_perm (meet_b M Sh e) setl setl_ok (List.length e)) as Pm. pose proof (fun p => parts_nonempty (meet_b M Sh e) setl setl_ok (List.length e) p) as Ne.
    set (ps := parts (meet_b M Sh e) setl (List.length e)) in *. clearbody ps.
    assert (L2 : List.length e' = List.length out) by (rewrite <- (map_length c_obstacles e'), Em, map_length; reflexivity).
    assert (Sub : forall p j, In p ps -> In j p -> (j < List.length e)%nat).
    { intros p j Hp Hj. assert (I : In j (seq 0 (List.length e))) by (apply (Permutation_in j Pm), in_concat; eauto). apply in_seq in I. lia. }
    split; [lia|]. split.
    - intros c' Hc. assert (I : In (c_obstacles c') (map c_obstacles out)) by (rewrite <- Em; apply in_map, Hc). rewrite Eo, map_map in I. apply in_map_iff in I as (p & Ep & Hp).
      exists (flat_map (fun j => match nth_error e j with Some c => [c] | None => [] end) p). split; [|split].
      + intros c Hcc. apply in_flat_map in Hcc as (j & _ & Hcc). destruct (nth_error e j) eqn:E; [|destruct Hcc]. destruct Hcc as [<-|[]]. apply nth_error_In with j, E.
      + specialize (Ne p Hp). destruct p as [|j p]; [congruence|]. cbn [flat_map]. assert (Lj := Sub _ j Hp (or_introl eq_refl)). destruct (nth_error e j) eqn:E; [discriminate|apply nth_error_None in E; lia].
      + rewrite <- Ep. cbn [new_cluster c_obstacles]. unfold gathered. clear. induction p as [|j p IH]; [reflexivity|]. cbn [flat_map]. rewrite flat_map_app, <- IH. f_equal. destruct (nth_error e j); [cbn; rewrite app_nil_r; reflexivity|reflexivity].
    - intros c Hc. apply In_nth_error in Hc as [j Hj]. assert (Lj : (j < List.length e)%nat) by (apply nth_error_Some; congruence).
      assert (I : In j (concat ps)) by (apply (Permutation_in j (Permutation_sym Pm)), in_seq; lia). apply in_concat in I as (p & Hp & Ij).
      assert (I2 : In (gathered e p) (map c_obstacles e')). { rewrite Em, Eo, map_map. apply in_map_iff. exists p. split; [reflexivity|exact Hp]. }
      apply in_map_iff in I2 as (c' & Ec & Hc'). exists c'. split; [exact Hc'|]. rewrite Ec. intros o Ho. unfold gathered. apply in_flat_map. exists j. split; [exact Ij|]. rewrite Hj. exact Ho.
  Qed.

  (** *** objects are found again by name *)
  Definition kept (h : list cluster) (e : list cluster) : Prop := forall c, In c e -> history_lookup (c_name c) h = Some c.
  Lemma lookup_cons name (c : cluster) (h : list cluster) (old : cluster) : history_lookup (c_name c) h = None -> history_lookup name h = Some old -> history_lookup name (c :: h) = Some old.
  Proof.
    intros N L. unfold history_lookup in *. cbn [find]. destruct (String.eqb_spec name (c_name c)) as [->|Ne]; [congruence|exact L].
  Qed.
  Lemma round_kept op x xg all k n : forall todo i counter h c' h' cls, Forall (named M) todo -> starify_round M Sh op x xg all k n i counter h todo = Val (c', h', cls, false) ->
    (forall name (old : cluster), history_lookup name h = Some old -> history_lookup name h' = Some old) /\ kept h' cls.
  Proof.
    induction todo as [|cl todo IH]; intros i counter h c' h' cls Nm H; cbn in H; [injection H as <- <- <-; split; [auto|intros ? []]|].
    inversion Nm as [|? ? N1 N2]; subst. destruct (history_lookup (c_name cl) h) as [old|] eqn:L.
    - obinv H. destruct a as [[[c1 h1] cls1] q]. injection H as <- <- <- ->. destruct (IH _ _ _ _ _ _ N2 E) as [A B]. split; [exact A|].
      intros c [<-|Hc]; [|apply B, Hc]. pose proof (history_some _ _ _ L) as [_ En]. rewrite En. apply A, L.
    - obinv H. destruct a as [[c1 cl']|cl']; [|discriminate]. obinv H. destruct a as [[[c2 h2] cls2] q]. injection H as <- <- <- ->.
      destruct (IH _ _ _ _ _ _ N2 E0) as [A B]. pose proof (later_cluster_spec M Sh _ _ _ _ _ _ _ _ _ _ E N1) as (Eo & _ & Dn). cbn [snd] in Eo, Dn.
      assert (En : c_name cl' = c_name cl). { rewrite (d_name _ _ _ Dn), Eo. symmetry. exact N1. }
      split.
      + intros name old Lo. apply A. apply lookup_cons; [rewrite En; exact L|exact Lo].
      + intros c [<-|Hc]; [|apply B, Hc]. apply A. unfold history_lookup. cbn [find]. rewrite String.eqb_refl. reflexivity.
  Qed.
  Definition entry_ok (obs : list Obs) (e : list cluster) : Prop := Permutation (flat_map c_obstacles e) obs /\ Forall (done M Sh) e /\ (forall c, In c e -> c_obstacles c <> []).
  Definition log_ok (obs : list Obs) (h : list cluster) (n : nat) (its : list (list cluster)) (e0 : list cluster) : Prop :=
    (exists pre, its = pre ++ [e0]) /\ List.length its = n /\ (forall e, In e its -> entry_ok obs e /\ kept h e) /\ pairwise_next its.
  Lemma nonempty_next e e' : coarser e e' -> (forall c, In c e -> c_obstacles c <> []) -> forall c, In c e' -> c_obstacles c <> [].
  Proof.
    intros (_ & C & _) N c Hc. destruct (C c Hc) as (l & I & Nl & ->). destruct l as [|d l]; [congruence|]. cbn. specialize (N d (I d (or_introl eq_refl))). destruct (c_obstacles d); [congruence|discriminate].
  Qed.
  Lemma rounds_log obs op x xg all k : NoDup (map (ob_id M) obs) -> op_return_history op = true -> forall f n counter h its e0 cls ex r,
    get_intersection_clusters M Sh setl e0 = Val (cls, ex) -> loop_inv M Sh h cls ex -> Forall (owned M obs) h -> log_ok obs h n its e0 ->
    rounds M Sh setl op x xg all k f n counter h its cls ex = Val r ->
    match r with
    | Finished c' n' its' out => exists e1 h', log_ok obs h' n' its' e1 /\ (exists more, its' = its ++ more) /\
        ((forall m, op_max_iterations op = Some m -> n' = n \/ (n' < m)%nat) -> out = map (fun c => fst (read_polygon M Sh c)) e1)
    | Stopped c' n' its' => List.length its' = S n' /\ exists more, its' = its ++ more
    end.
  Proof.
    intros Nd Rh. induction f as [|f IH]; intros n counter h its e0 cls ex r Gc I Oh Lg H; cbn [rounds] in H.
    - destruct ex; [discriminate|]. injection H as <-. exists e0, h. split; [exact Lg|]. split; [exists []; rewrite app_nil_r; reflexivity|]. intros _.
      destruct Lg as ((pre & E) & _ & K & _). destruct (K e0 ltac:(rewrite E; apply in_app_iff; right; left; reflexivity)) as ((_ & D & _) & _).
      rewrite (gic_value M Sh setl e0 (done_has M Sh e0 D)) in Gc. destruct (intersections_exist _ _); [discriminate|]. injection Gc as <-. reflexivity.
    - destruct ex.
      2:{ injection H as <-. exists e0, h. split; [exact Lg|]. split; [exists []; rewrite app_nil_r; reflexivity|]. intros _.
          destruct Lg as ((pre & E) & _ & K & _). destruct (K e0 ltac:(rewrite E; apply in_app_iff; right; left; reflexivity)) as ((_ & D & _) & _).
          rewrite (gic_value M Sh setl e0 (done_has M Sh e0 D)) in Gc. destruct (intersections_exist _ _); [discriminate|]. injection Gc as <-. reflexivity. }
      destruct (op_late op (AtRound n)); [injection H as <-; split; [rewrite app_length; cbn; destruct Lg as (_ & -> & _); lia|eexists; reflexivity]|].
      obinv H. destruct a as [[[c1 h1] cls1] q]. destruct q; [injection H as <-; split; [rewrite app_length; cbn; destruct Lg as (_ & -> & _); lia|eexists; reflexivity]|].
      obinv H. destruct a as [out1 b]. rewrite Rh in H.
      destruct I as (D & N & L0). destruct (round_inv M Sh setl setl_ok _ _ _ _ _ _ _ _ _ _ _ _ _ _ E N D E0) as (I' & D1 & _ & _).
      destruct Lg as ((pre & Ei) & Ln & K & Nx). destruct (K e0 ltac:(rewrite Ei; apply in_app_iff; right; left; reflexivity)) as ((P0 & D0 & Ne0) & _).
      destruct (C65_preserves_obstacles M Sh setl setl_ok e0 cls true (done_has M Sh _ D0) Gc) as (P1 & _).
      assert (P : Permutation (flat_map c_obstacles cls) obs) by (rewrite P1; exact P0).
      destruct (round_obstacles M Sh obs op x xg all k n Nd cls 0%nat counter h c1 h1 cls1 E (owned_flat M obs cls N (perm_incl _ _ P)) Oh) as [Q Oh'].
      assert (Cs : coarser e0 cls1) by (apply (gic_coarser e0 cls); [apply done_has, D0|exact Gc|exact Q]).
      destruct (round_kept op x xg all k n cls 0%nat counter h c1 h1 cls1 N E) as [Kp Kc].
      assert (Lg' : log_ok obs h1 (S n) (its ++ [cls1]) cls1).
      { split; [eauto|]. split; [rewrite app_length; cbn; lia|]. split.
        - intros e He. apply in_app_iff in He as [He|[<-|[]]].
          + destruct (K e He) as [K1 K2]. split; [exact K1|]. intros c Hc. apply Kp, K2, Hc.
          + split; [|exact Kc]. split; [rewrite (flat_obstacles cls1 cls Q); exact P|]. split; [exact D1|]. apply (nonempty_next e0); assumption.
        - rewrite Ei in *. apply next_snoc; assumption. }
      destruct (match op_max_iterations op with Some m0 => (m0 <=? S n)%nat | None => false end) eqn:Cut.
      + injection H as <-. exists cls1, h1. split; [exact Lg'|]. split; [eauto|]. intros Mx. destruct (op_max_iterations op) as [m|]; [|discriminate]. apply Nat.leb_le in Cut. destruct (Mx m eq_refl); lia.
      + specialize (IH (S n) c1 h1 (its ++ [cls1]) cls1 out1 b r E0 I' Oh' Lg' H). destruct r as [c' n' its'|c' n' its' out].
        * destruct IH as [A (more & B)]. split; [exact A|]. exists ([cls1] ++ more). rewrite B, app_assoc. reflexivity.
        * destruct IH as (e1 & h' & A & (more & B) & C). exists e1, h'. split; [exact A|]. split; [exists ([cls1] ++ more); rewrite B, app_assoc; reflexivity|]. intros Mx. apply C. intros m Em.
          destruct (Mx m Em) as [->|]; [|right; assumption]. exfalso. destruct A as (_ & A & _). rewrite B, !app_length in A. cbn in A. lia.
  Qed.
  Lemma rounds_stop_pos op x xg all k : forall f n counter h its cls ex c' n' its', rounds M Sh setl op x xg all k f n counter h its cls ex = Val (Stopped c' n' its') -> (n <= n')%nat.
  Proof.
    induction f as [|f IH]; intros n counter h its cls ex c' n' its' H; cbn [rounds] in H; (destruct ex; [|discriminate]); [discriminate|].
    destruct (op_late op (AtRound n)); [injection H as <- <- <-; lia|]. obinv H. destruct a as [[[c1 h1] cls1] q]. destruct q; [injection H as <- <- <-; lia|]. obinv H. destruct a as [out1 b].
    destruct (match op_max_iterations op with Some m0 => (m0 <=? S n)%nat | None => false end); [discriminate|]. apply IH in H. lia.
  Qed.
  Lemma first_lookup (cls : list cluster) : NoDup (map c_name cls) -> kept (rev cls) cls.
  Proof.
    intros Nd c Hc. apply in_rev in Hc. assert (Nr : NoDup (map c_name (rev cls))) by (rewrite map_rev; apply NoDup_rev, Nd). revert Hc Nr. generalize (rev cls). clear. unfold history_lookup.
    induction l as [|d l IH]; intros Hc Nr; [destruct Hc|]. cbn [map] in Nr. inversion Nr as [|? ? N1 N2]; subst. cbn [find]. destruct Hc as [->|Hc]; [rewrite String.eqb_refl; reflexivity|].
    destruct (String.eqb_spec (c_name c) (c_name d)) as [E|_]; [exfalso; apply N1; rewrite <- E; apply in_map, Hc|apply IH; assumption].
  Qed.
  Lemma first_log op x xg k c0 obs c1 cls out b : NoDup (map (ob_id M) obs) -> first_clusters M Sh op x xg k c0 0 obs = Val (c1, cls) ->
    get_intersection_clusters M Sh setl cls = Val (out, b) -> map c_obstacles cls = map (fun o => [o]) obs /\ log_ok obs (rev cls) 1 [cls] cls /\ loop_inv M Sh (rev cls) out b /\ Forall (owned M obs) (rev cls).
  Proof.
    intros Nd F Gc. destruct (first_inv M Sh setl setl_ok _ _ _ _ _ _ _ _ _ _ F Gc) as (D & _ & I & _). apply first_clusters_spec in F as [A _]. cbn [snd] in A.
    assert (P0 : flat_map c_obstacles cls = obs) by (rewrite flat_map_concat_map, A; clear; induction obs as [|o obs IH]; [reflexivity|]; cbn; f_equal; exact IH).
    assert (Nm : Forall (named M) cls) by (eapply Forall_impl; [|exact D]; intros c Hc; apply Hc).
    assert (Names : map c_name cls = map (fun o => name_of [ob_id M o]) obs).
    { clear - A Nm. revert obs A. induction cls as [|c cls IH]; intros [|o obs] A; cbn in A; try discriminate; [reflexivity|]. injection A as A1 A2. inversion Nm as [|? ? N1 N2]; subst. cbn. f_equal; [|apply IH; assumption].
      unfold named in N1. rewrite N1, A1. reflexivity. }
    split; [exact A|]. split; [|split; [exact I|apply Forall_rev, owned_flat; [exact Nm|rewrite P0; apply incl_refl]]].
    split; [exists []; reflexivity|]. split; [reflexivity|]. split.
    - intros e [<-|[]]. split.
      + split; [rewrite P0; reflexivity|]. split; [exact D|]. intros c Hc. assert (J : In (c_obstacles c) (map (fun o => [o]) obs)) by (rewrite <- A; apply in_map, Hc). apply in_map_iff in J as (o & <- & _). discriminate.
      + apply first_lookup. rewrite Names. rewrite <- (map_map (ob_id M) (fun i => name_of [i])). apply FinFun.Injective_map_NoDup; [|exact Nd]. intros i j E. apply name_inj in E. congruence.
    - intros i e e' H H'. destruct i; discriminate.
  Qed.
  Lemma names_differ obs e : NoDup (map (ob_id M) obs) -> entry_ok obs e -> NoDup (map c_name e).
  Proof.
    intros Nd (P & D & Ne). assert (Nf : NoDup (map (ob_id M) (flat_map c_obstacles e))). { apply (Permutation_NoDup (Permutation_map (ob_id M) (Permutation_sym P))), Nd. }
    clear P. induction e as [|c e IH]; [constructor|]. inversion D as [|? ? D1 D2]; subst. cbn [flat_map] in Nf. rewrite map_app in Nf. cbn [map]. constructor.
    - intros I. apply in_map_iff in I as (d & En & Hd). rewrite Forall_forall in D2. rewrite (d_name _ _ _ D1), (d_name _ _ _ (D2 d Hd)) in En. apply name_inj in En.
      specialize (Ne c (or_introl eq_refl)). destruct (c_obstacles c) as [|o l] eqn:Eo; [congruence|].
      assert (J : In (ob_id M o) (map (ob_id M) (c_obstacles d))) by (rewrite En; left; reflexivity). cbn in Nf. inversion Nf as [|? ? N1 _]; subst. apply N1. apply in_app_iff. right.
      apply in_map_iff in J as (o' & E' & Ho'). rewrite <- E'. apply in_map, in_flat_map. eauto.
    - apply IH; [exact D2|intros d Hd; apply Ne; right; exact Hd|]. clear - Nf. induction (map (ob_id M) (c_obstacles c)) as [|z l IHl]; [exact Nf|]. cbn in Nf. inversion Nf; auto.
  Qed.
  Lemma find_name (l : list cluster) c : NoDup (map c_name l) -> In c l -> forall s, s = c_name c -> find (fun d => String.eqb s (c_name d)) l = Some c.
  Proof.
    intros N Hc s ->. induction l as [|d l IH]; [destruct Hc|]. cbn [map] in N. inversion N as [|? ? N1 N2]; subst. cbn [find]. destruct Hc as [->|Hc]; [rewrite String.eqb_refl; reflexivity|].
    destruct (String.eqb_spec (c_name c) (c_name d)) as [E|_]; [exfalso; apply N1; rewrite <- E; apply in_map, Hc|apply IH; assumption].
  Qed.

  (** C108 *)
  Theorem C108_rounds_partial : forall op fuel counter x xg obs a, call op fuel counter x xg obs = Val a -> op_return_history op = true -> NoDup (map (ob_id M) obs) ->
    a_flag a = COMPLETE ->
    exists l, a_history a = Some (Rounds l) /\
      (* one entry for each iteration *)
      List.length l = a_iter a /\
      (* the first one has a cluster for each obstacle *)
      (exists e l', l = e :: l' /\ map c_obstacles e = map (fun o => [o]) obs) /\
      (* no entry loses or repeats an obstacle, and every cluster of an entry has an obstacle representing it *)
      (forall e, In e l -> Permutation (flat_map c_obstacles e) obs /\ forall c, In c e -> exists ob k, c_obstacle c = Some ob /\ c_kernel_points c = Some k) /\
      (* every entry is made of the clusters of the one before *)
      pairwise_next l /\
      (uncut op a ->
       (* the last one is the answer *)
       (exists l' e, l = l' ++ [e] /\ map c_obstacles e = map c_obstacles (a_clusters a) /\ map (seen_later M Sh (a_clusters a)) e = a_clusters a) /\
       (* without make_convex the caller sees the clusters as they were *)
       (op_make_convex op = false -> forall e c, In e l -> In c e ->
          seen_later M Sh (a_clusters a) c = fst (read_polygon M Sh c) /\ c_obstacle (seen_later M Sh (a_clusters a) c) = c_obstacle c)).
  Proof.
    intros op fuel counter x xg obs a H Rh Nd Fl. assert (H' := H). unfold cluster_and_starify in H. obinv H. destruct a0 as [k|]; [|injection H as <-; discriminate]. obinv H. destruct a0 as [c1 cls]. cbv zeta in H.
    obinv H. destruct a0 as [out b]. obinv H. rewrite Rh in *. destruct (first_log _ _ _ _ _ _ _ _ _ _ Nd E0 E1) as (A & Lg & I & Oh).
    pose proof (rounds_log obs op x xg obs k Nd Rh fuel 1 c1 (rev cls) [cls] cls out b a0 E1 I Oh Lg E2) as K. destruct a0 as [c2 n its'|c2 n its' cls2]; [injection H as <-; discriminate|].
    destruct K as (e1 & h' & Lg' & (more & Em) & Last).
    assert (Ha : a_history a = Some (Rounds its') /\ a_iter a = n /\ ((op_make_convex op = false /\ a_clusters a = cls2) \/ (op_make_convex op = true /\ exists c3, convexify M Sh op x xg c2 [] cls2 = Val (c3, true, a_clusters a)))).
    { destruct (op_make_convex op); [|injection H as <-; auto]. obinv H. destruct a0 as [[c3 t] cls3]. destruct t; injection H as <-; [|discriminate]. split; [reflexivity|]. split; [reflexivity|]. right. split; [reflexivity|]. eauto. }
    destruct Ha as (Hh & Hn & Hc). exists its'. split; [exact Hh|]. destruct Lg' as ((pre & Ei) & Ln & Ok & Nx). split; [congruence|].
    split; [exists cls, more; split; [rewrite Em; reflexivity|exact A]|]. split.
    { intros e He. destruct (Ok e He) as ((P & D & _) & _). split; [exact P|]. intros c Hcc. rewrite Forall_forall in D. destruct (D c Hcc) as [_ K (ob & Eo & _) _]. destruct (c_kernel_points c) as [kp|]; [eauto|congruence]. }
    split; [exact Nx|]. intros Un. assert (Eo : cls2 = map (fun c => fst (read_polygon M Sh c)) e1) by (apply Last; unfold uncut in Un; rewrite <- Hn; exact Un).
    assert (He1 : In e1 its') by (rewrite Ei; apply in_app_iff; right; left; reflexivity). destruct (Ok e1 He1) as (Ek & Kp).
    assert (Nn := names_differ obs e1 Nd Ek).
    assert (Rn : forall c, c_name (fst (read_polygon M Sh c)) = c_name c /\ c_obstacles (fst (read_polygon M Sh c)) = c_obstacles c /\ c_obstacle (fst (read_polygon M Sh c)) = c_obstacle c).
    { intros c. pose proof (read_cache M Sh c) as (R1 & R2 & R3 & _). auto. }
    assert (Fin : map c_name (a_clusters a) = map c_name e1 /\ map c_obstacles (a_clusters a) = map c_obstacles e1).
    { assert (B : map c_name cls2 = map c_name e1 /\ map c_obstacles cls2 = map c_obstacles e1). { rewrite Eo, !map_map. split; apply map_ext; intros c; apply Rn. }
      destruct Hc as [[_ ->]|(_ & c3 & Cv)]; [exact B|]. destruct (convexify_top M Sh op x xg _ _ _ _ _ Cv) as [L F2]. destruct B as [<- <-].
      split; apply nth_ext_error; intros i; rewrite !nth_error_map; destruct (nth_error cls2 i) as [ci|] eqn:Ci; destruct (nth_error (a_clusters a) i) as [ci'|] eqn:Ci'; cbn;
        try (f_equal; apply (F2 i ci ci' Ci Ci')); try reflexivity;
        try (exfalso; apply nth_error_None in Ci'; assert (i < List.length cls2)%nat by (apply nth_error_Some; congruence); lia);
        try (exfalso; apply nth_error_None in Ci; assert (i < List.length (a_clusters a))%nat by (apply nth_error_Some; congruence); lia). }
    destruct Fin as [Fn Fo]. assert (Na : NoDup (map c_name (a_clusters a))) by (rewrite Fn; exact Nn). split.
    - exists pre, e1. split; [exact Ei|]. split; [symmetry; exact Fo|].
      assert (Gen : forall l1 l2 : list cluster, map c_name l2 = map c_name l1 -> incl l2 (a_clusters a) -> map (seen_later M Sh (a_clusters a)) l1 = l2).
      { induction l1 as [|c l1 IH]; intros [|d l2] En In2; cbn in En; try discriminate; [reflexivity|]. injection En as E3 E4. cbn [map]. f_equal.
        - unfold seen_later. rewrite (find_name (a_clusters a) d Na (In2 d (or_introl eq_refl)) (c_name c) (eq_sym E3)). reflexivity.
        - apply IH; [exact E4|intros z Hz; apply In2; right; exact Hz]. }
      apply Gen; [exact Fn|apply incl_refl].
    - intros Mc e c He Hcc. destruct (Ok e He) as (_ & Ke). assert (S1 : seen_later M Sh (a_clusters a) c = fst (read_polygon M Sh c)).
      { unfold seen_later. destruct (find _ (a_clusters a)) as [d|] eqn:Fd; [|reflexivity]. apply find_some in Fd as [Hd Ed]. apply String.eqb_eq in Ed.
        destruct Hc as [[_ Ec]|[E9 _]]; [|congruence]. rewrite Ec, Eo in Hd. apply in_map_iff in Hd as (d0 & <- & Hd0). specialize (Kp d0 Hd0). specialize (Ke c Hcc). rewrite (proj1 (Rn d0)) in Ed. rewrite Ed in Ke. congruence. }
      split; [exact S1|]. rewrite S1. apply Rn.
  Qed.

  (** a call that gives up in a later round has one entry more than iterations *)
  Theorem C108_given_up : forall op fuel counter x xg obs a, call op fuel counter x xg obs = Val a -> op_return_history op = true -> NoDup (map (ob_id M) obs) ->
    a_flag a = INCOMPLETE ->
    (a_iter a = 0%nat /\ a_history a = Some (Flat (a_clusters a))) \/
    ((0 < a_iter a)%nat /\ exists l, a_history a = Some (Rounds l) /\ List.length l = S (a_iter a) /\
       exists e l', l = e :: l' /\ map c_obstacles e = map (fun o => [o]) obs).
  Proof.
    intros op fuel counter x xg obs a H Rh Nd Fl. unfold cluster_and_starify in H. obinv H. destruct a0 as [k|].
    2:{ injection H as <-. left. unfold default_result. rewrite Rh. cbn. auto. }
    obinv H. destruct a0 as [c1 cls]. cbv zeta in H. obinv H. destruct a0 as [out b]. obinv H. rewrite Rh in *. destruct (first_log _ _ _ _ _ _ _ _ _ _ Nd E0 E1) as (A & Lg & I & Oh).
    pose proof (rounds_log obs op x xg obs k Nd Rh fuel 1 c1 (rev cls) [cls] cls out b a0 E1 I Oh Lg E2) as K. destruct a0 as [c2 n its'|c2 n its' cls2].
    - destruct K as (Ln & more & Em). injection H as <-. right. unfold default_result. rewrite Rh. cbn [a_iter a_history]. assert (N0 : (0 < n)%nat) by (rewrite Em in Ln; cbn in Ln; pose proof (rounds_stop_pos _ _ _ _ _ _ _ _ _ _ _ _ _ _ _ E2); lia).
      split; [exact N0|]. apply Nat.ltb_lt in N0. rewrite N0. exists its'. split; [reflexivity|]. split; [exact Ln|]. exists cls, more. split; [exact Em|exact A].
    - exfalso. destruct (op_make_convex op); [|injection H as <-; discriminate]. obinv H. destruct a0 as [[c3 t] cls3]. destruct t; injection H as <-; discriminate.
  Qed.
End HistoryResult.
Print Assumptions C108_rounds_partial.
Print Assumptions C108_given_up.
