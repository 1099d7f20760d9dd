(** C84, C89: ids of cluster obstacles within a call and between calls. *)
From Coq Require Import String Reals List Bool Arith ZArith Lia Permutation.
From Verif Require Import Num Spec M_Cg M_Motion M_Obstacle M_Clusters L_Clusters P_Clusters M_StarHull M_Starify L_Starify P_Starify P_StarifyResult.
Import ListNotations.
Local Open Scope Z_scope.

Section Ids.
  Context {Obs G : Type} (M : methods Obs G) (Sh : shapely G) (setl : list nat -> list nat).
  Notation cluster := (cluster Obs G).
  Notation call := (cluster_and_starify M Sh setl).
  Notation gic := (get_intersection_clusters M Sh setl).
  Hypothesis setl_ok : set_order setl.

  (** *** independent vocabulary *)
  (* the id of the cluster obstacle, when there is one and it has one *)
  Definition has_id (c : cluster) (z : Z) : Prop := exists ob, c_obstacle c = Some ob /\ obst_id M ob = Some z.
  Definition given (op : options Obs G) (p : cluster) : Prop := exists l, op_previous op = Some l /\ In p l.
  Definition one_per_name (op : options Obs G) : Prop := forall l, op_previous op = Some l -> NoDup (map c_name l).
  Definition issued (counter z : Z) : Prop := 0 < z <= counter.

  (** *** where an id comes from; [lo]: the counter at the start, [hi]: now *)
  Definition origin (op : options Obs G) (lo hi : Z) (c : cluster) : Prop :=
    match c_obstacle c with
    | None => True
    | Some (Original o _) => c_obstacles c = [o]
    | Some (HullPolygon _ _ _) => False
    | Some (Combination _ _ _ i) =>
        (exists p, given op p /\ c_name p = c_name c /\ forall z, has_id p z -> issued lo z -> i = Some z)
        \/ ((forall p, given op p -> c_name p <> c_name c) /\ exists z, i = Some z /\ lo < z <= hi)
    end.
  Definition fresh_id (lo : Z) (c : cluster) (z : Z) : Prop := exists ms h xr, c_obstacle c = Some (Combination ms h xr (Some z)) /\ lo < z.
  Definition all_issued (op : options Obs G) (lo : Z) : Prop := forall p, given op p -> exists z, has_id p z /\ issued lo z.
  Lemma origin_mono op lo hi hi' c : hi <= hi' -> origin op lo hi c -> origin op lo hi' c.
  Proof. unfold origin. destruct (c_obstacle c) as [[| ms h xr i|]|]; auto. intros L [H|(A & z & B & C)]; [left; exact H|right]. split; [exact A|]. exists z. split; [exact B|lia]. Qed.
  Lemma fresh_bound op lo hi c z : all_issued op lo -> origin op lo hi c -> fresh_id lo c z -> z <= hi.
  Proof.
    intros A H (ms & h & xr & E & L). unfold origin in H. rewrite E in H. destruct H as [(p & P & _ & Q)|(_ & y & Y & Z)].
    - destruct (A p P) as (y & I & S). specialize (Q y I S). injection Q as ->. unfold issued in S. lia.
    - injection Y as ->. lia.
  Qed.

  Record J (op : options Obs G) (lo hi : Z) (h : list cluster) : Prop := {
    j_origin : Forall (origin op lo hi) h;
    j_nonempty : Forall (fun c => c_obstacles c <> []) h;
    j_once : all_issued op lo -> forall c d z, In c h -> In d h -> fresh_id lo c z -> fresh_id lo d z -> c_name c = c_name d }.
  Lemma J_cons op lo hi hi' h c : J op lo hi h -> hi <= hi' -> origin op lo hi' c -> c_obstacles c <> [] ->
    (all_issued op lo -> forall z, fresh_id lo c z -> hi < z) -> J op lo hi' (c :: h).
  Proof.
    intros [A B C] L O N F. constructor.
    - constructor; [exact O|]. eapply Forall_impl; [|exact A]. intros d. apply origin_mono, L.
    - constructor; assumption.
    - intros S a b z [<-|Ha] [<-|Hb] Fa Fb; [reflexivity| | |apply (C S a b z); assumption]; exfalso; rewrite Forall_forall in A.
      + pose proof (F S z Fa). pose proof (fresh_bound op lo hi b z S (A b Hb) Fb). lia.
      + pose proof (F S z Fb). pose proof (fresh_bound op lo hi a z S (A a Ha) Fa). lia.
  Qed.

  (* the id of a new combination *)
  Lemma new_id op lo counter (cl_prev : option cluster) ida c' oid ms h xr c :
    lo <= counter -> id_argument M cl_prev = Val ida -> set_id counter ida = (c', oid) ->
    match cl_prev with Some p => given op p /\ c_name p = c_name c | None => forall p, given op p -> c_name p <> c_name c end ->
    c_obstacle c = Some (Combination ms h xr oid) ->
    counter <= c' /\ origin op lo c' c /\ (all_issued op lo -> forall z, fresh_id lo c z -> counter < z).
  Proof.
    intros L I S P E. unfold origin, fresh_id. rewrite E. destruct cl_prev as [p|]; cbn in I.
    - destruct (c_obstacle p) as [ob|] eqn:Op; [|discriminate]. injection I as <-. destruct P as [P Nm].
      assert (Q : forall z, has_id p z -> issued lo z -> oid = Some z).
      { intros z (ob' & E1 & E2) [Z1 Z2]. rewrite Op in E1. injection E1 as <-. rewrite E2 in S. cbn in S.
        destruct (Z.ltb_spec 0 z); [|lia]. destruct (Z.leb_spec z counter); [|lia]. cbn in S. congruence. }
      assert (C : c' = counter) by (destruct (obst_id M ob); cbn in S; congruence). split; [lia|]. split; [left; exists p; auto|].
      intros A z (ms' & h' & xr' & Ez & Lz). destruct (A p P) as (y & Iy & Sy). pose proof (Q y Iy Sy). assert (oid = Some z) by congruence.
      assert (y = z) by congruence. subst. unfold issued in Sy. lia.
    - injection I as <-. cbn in S. injection S as <- <-. split; [lia|]. split.
      + right. split; [exact P|]. eexists. split; [reflexivity|lia].
      + intros _ z (ms' & h' & xr' & Ez & Lz). injection Ez as _ _ _ <-. lia.
  Qed.
  Lemma extract_cases op name (c : cluster) (f : option (list cluster) -> option cluster) : f = extract_cluster name \/ f = extract_last name -> c_name c = name ->
    match f (op_previous op) with Some p => given op p /\ c_name p = c_name c | None => forall p, given op p -> c_name p <> c_name c end.
  Proof.
    intros Hf <-. unfold given. destruct Hf as [-> | ->]; unfold extract_cluster, extract_last; (destruct (op_previous op) as [l|]; [|intros p (l & E & _); discriminate]).
    - destruct (find _ l) as [p|] eqn:F.
      + apply find_some in F as [A B]. apply String.eqb_eq in B. eauto.
      + intros p (l' & E & I) N. injection E as <-. apply (find_none _ _ F) in I. apply String.eqb_neq in I. congruence.
    - destruct (find _ (rev l)) as [p|] eqn:F.
      + apply find_some in F as [A B]. apply String.eqb_eq in B. apply in_rev in A. eauto.
      + intros p (l' & E & I) N. injection E as <-. apply in_rev in I. apply (find_none _ _ F) in I. apply String.eqb_neq in I. congruence.
  Qed.

  Lemma first_cluster_ids op x xg k lo counter i o c' cl : lo <= counter -> first_cluster M Sh op x xg k counter i o = Val (c', cl) ->
    counter <= c' /\ origin op lo c' cl /\ c_obstacles cl <> [] /\ (all_issued op lo -> forall z, fresh_id lo cl z -> counter < z).
  Proof.
    intros L H. unfold first_cluster in H. obinvs H. destruct a5 as [h|].
    - destruct (set_id counter a4) as [c2 oid] eqn:S. injection H as <- <-.
      edestruct (new_id op lo counter _ a4 c2 oid [o] (Some h) (triangle_mean a3) (Cluster (c_name (new_cluster M [o])) [o] (Some (Combination [o] (Some h) (triangle_mean a3) oid)) (Some a3) (Some (sh_intersection Sh a1 a2)) None) L E4 S) as (A & B & C).
      + apply (extract_cases op (c_name (new_cluster M [o])) _ (extract_cluster _)); [left; reflexivity|reflexivity].
      + reflexivity.
      + split; [exact A|]. split; [exact B|]. split; [discriminate|exact C].
    - destruct (is_star_class (ob_class M o)); [|discriminate]. injection H as <- <-. split; [lia|]. split; [reflexivity|]. split; [discriminate|].
      intros _ z (ms & h & xr & Ez & _). discriminate.
  Qed.
  Lemma first_clusters_ids op x xg k lo : forall obs counter i c1 cls h, lo <= counter -> J op lo counter h ->
    first_clusters M Sh op x xg k counter i obs = Val (c1, cls) -> counter <= c1 /\ J op lo c1 (rev cls ++ h).
  Proof.
    induction obs as [|o obs IH]; intros counter i c1 cls h L Jh H; cbn in H; [injection H as <- <-; split; [lia|exact Jh]|].
    obinv H. destruct a as [c2 cl]. obinv H. destruct a as [c3 cls']. injection H as <- <-.
    apply (first_cluster_ids _ _ _ _ lo) in E as (A & B & C & D); [|exact L].
    apply (IH _ _ _ _ (cl :: h)) in E0 as [P Q]; [|lia|apply (J_cons op lo counter); assumption]. split; [lia|].
    cbn [rev]. rewrite <- app_assoc. exact Q.
  Qed.
  Lemma later_ids op x xg all k n i lo counter cl c' cl' : lo <= counter -> later_cluster M Sh op x xg all k n i counter cl = Val (inl (c', cl')) ->
    counter <= c' /\ origin op lo c' cl' /\ c_obstacles cl' = c_obstacles cl /\ (all_issued op lo -> forall z, fresh_id lo cl' z -> counter < z).
  Proof.
    intros L. unfold later_cluster. intros H. obinvs H. destruct (vanishing Sh _); [discriminate|]. cbv zeta in H. obinvs H.
    destruct (set_id counter a2) as [c2 oid] eqn:S. injection H as <- <-. cbn [c_obstacles].
    match goal with |- _ /\ origin op lo _ ?c /\ _ => edestruct (new_id op lo counter _ a2 c2 oid (filter (ob_is_starshaped M) (c_obstacles cl)) a3 (triangle_mean a1) c L E2 S) as (A & B & C) end.
    - apply (extract_cases op (c_name cl) _ (extract_last _)); [right; reflexivity|reflexivity].
    - reflexivity.
    - split; [exact A|]. split; [exact B|]. split; [reflexivity|exact C].
  Qed.
  Lemma J_hist op lo hi h : J op lo hi h -> forall name c, history_lookup name h = Some c -> In c h.
  Proof. intros _ name c H. apply history_some in H. tauto. Qed.
  Lemma round_ids op x xg all k n lo : forall todo i counter h c' h' cls, lo <= counter -> J op lo counter h -> Forall (fun c => c_obstacles c <> []) todo ->
    starify_round M Sh op x xg all k n i counter h todo = Val (c', h', cls, false) ->
    counter <= c' /\ J op lo c' h' /\ incl h h' /\ incl cls h'.
  Proof.
    induction todo as [|cl todo IH]; intros i counter h c' h' cls L Jh Ne H; cbn in H.
    { injection H as <- <- <-. split; [lia|]. split; [exact Jh|]. split; [apply incl_refl|intros z []]. }
    inversion Ne as [|? ? N1 N2]; subst. destruct (history_lookup (c_name cl) h) as [old|] eqn:Lk.
    - obinv H. destruct a as [[[c1 h1] cls1] q]. injection H as <- <- <- ->. destruct (IH _ _ _ _ _ _ L Jh N2 E) as (A & B & C & D).
      split; [exact A|]. split; [exact B|]. split; [exact C|]. intros z [<-|Hz]; [|apply D, Hz]. apply C. apply history_some in Lk. tauto.
    - obinv H. destruct a as [[c1 cl']|cl']; [|discriminate]. obinv H. destruct a as [[[c2 h2] cls2] q]. injection H as <- <- <- ->.
      apply (later_ids _ _ _ _ _ _ _ lo) in E as (A & B & C & D); [|exact L].
      assert (J1 : J op lo c1 (cl' :: h)) by (apply (J_cons op lo counter); [exact Jh|exact A|exact B|rewrite C; exact N1|exact D]).
      destruct (IH _ _ _ _ _ _ (Z.le_trans _ _ _ L A) J1 N2 E0) as (A' & B' & C' & D').
      split; [lia|]. split; [exact B'|]. split; [intros z Hz; apply C'; right; exact Hz|].
      intros z [<-|Hz]; [apply C'; left; reflexivity|apply D', Hz].
  Qed.

  (** clusters on the way: as in the history, or just merged *)
  Definition same (c d : cluster) : Prop := c_name c = c_name d /\ c_obstacles c = c_obstacles d /\ c_obstacle c = c_obstacle d.
  Definition backed (h : list cluster) (c : cluster) : Prop := (exists d, In d h /\ same c d) \/ (exists l, l <> [] /\ c = new_cluster M l).
  Lemma backed_nonempty op lo hi h cls : J op lo hi h -> Forall (backed h) cls -> Forall (fun c => c_obstacles c <> []) cls.
  Proof.
    intros [_ N _] B. eapply Forall_impl; [|exact B]. intros c [(d & I & _ & E & _)|(l & Nl & ->)]; [|exact Nl]. rewrite E. rewrite Forall_forall in N. apply N, I.
  Qed.
  Lemma gic_ids h cls out b : has_polygons M Sh cls -> gic cls = Val (out, b) -> incl cls h -> Forall (fun c => c_obstacles c <> []) h -> Forall (backed h) out.
  Proof.
    intros P H I N. rewrite (gic_value M Sh setl cls P) in H. apply Forall_forall. intros c Hc.
    destruct (intersections_exist _ _); injection H as <- <-; apply in_map_iff in Hc as (p & <- & Hp).
    - right. exists (gathered cls p). split; [|reflexivity]. assert (Np := parts_nonempty _ _ setl_ok _ p Hp).
      destruct p as [|j p]; [congruence|]. assert (Lj : (j < List.length cls)%nat).
      { pose proof (proj1 (part_component _ _ setl_ok _ _ j j Hp (or_introl eq_refl)) (or_introl eq_refl)) as Q. apply linked_dom in Q. tauto. }
      unfold gathered. cbn [flat_map]. destruct (nth_error cls j) as [cj|] eqn:Ej; [|apply nth_error_None in Ej; lia].
      rewrite Forall_forall in N. specialize (N cj (I cj (nth_error_In _ _ Ej))). destruct (c_obstacles cj); [congruence|discriminate].
    - left. exists p. split; [apply I, Hp|]. destruct (read_cache M Sh p) as (A & B & C & _). unfold same. auto.
  Qed.
  Lemma backed_incl h h' cls : incl h h' -> Forall (backed h) cls -> Forall (backed h') cls.
  Proof. intros I F. eapply Forall_impl; [|exact F]. intros c [(d & A & B)|B]; [left; exists d; auto|right; exact B]. Qed.
  Lemma rounds_ids op x xg all k lo : forall f n counter h its cls ex c' n' its' out,
    loop_inv M Sh h cls ex -> lo <= counter -> J op lo counter h -> Forall (backed h) cls ->
    rounds M Sh setl op x xg all k f n counter h its cls ex = Val (Finished c' n' its' out) ->
    counter <= c' /\ exists h', J op lo c' h' /\ Forall (backed h') out /\ Forall (named M) out.
  Proof.
    induction f as [|f IH]; intros n counter h its cls ex c' n' its' out I L Jh B H; cbn [rounds] in H;
      (destruct ex; [|injection H as <- <- <- <-; split; [lia|]; exists h; split; [exact Jh|]; split; [exact B|apply I]]); [discriminate|].
    destruct (op_late op (AtRound n)); [discriminate|]. obinv H. destruct a as [[[c1 h1] cls1] q]. destruct q; [discriminate|]. obinv H. destruct a as [out1 b].
    destruct I as (D & N & L0). destruct (round_inv M Sh setl setl_ok _ _ _ _ _ _ _ _ _ _ _ _ _ _ E N D E0) as (I' & D1 & _ & _).
    destruct (round_ids op x xg all k n lo cls 0%nat counter h c1 h1 cls1 L Jh (backed_nonempty _ _ _ _ _ Jh B) E) as (A1 & J1 & _ & C1).
    assert (B1 : Forall (backed h1) out1) by (apply (gic_ids h1 cls1 out1 b (done_has M Sh _ D1) E0 C1), J1).
    destruct (match op_max_iterations op with Some m0 => (m0 <=? S n)%nat | None => false end).
    - injection H as <- <- <- <-. split; [exact A1|]. exists h1. split; [exact J1|]. split; [exact B1|apply I'].
    - apply (IH _ _ _ _ _ _ _ _ _ _ I' (Z.le_trans _ _ _ L A1) J1 B1) in H as (A2 & h' & Q). split; [lia|]. exists h'. exact Q.
  Qed.

  (** *** make_convex *)
  Definition hull_id (c : cluster) (z : Z) : Prop := exists h p, c_obstacle c = Some (HullPolygon h p (Some z)).
  Definition convexified (lo hi : Z) (c c' : cluster) : Prop :=
    c_name c' = c_name c /\ c_obstacles c' = c_obstacles c /\
    (c_obstacle c' = c_obstacle c \/ exists h p z, c_obstacle c' = Some (HullPolygon h p (Some z)) /\ lo < z <= hi).
  Lemma convexify_ids op x xg : forall todo counter before c b out,
    (forall cl h p i, In cl todo -> c_obstacle cl <> Some (HullPolygon h p i)) -> convexify M Sh op x xg counter before todo = Val (c, b, out) ->
    counter <= c /\ exists out2, out = before ++ out2 /\ Forall2 (convexified counter c) todo out2 /\
      ForallOrdPairs (fun a d => forall y z, hull_id a y -> hull_id d z -> y < z) out2.
  Proof.
    induction todo as [|cl todo IH]; intros counter before c b out Nh H; cbn [convexify] in H.
    - injection H as <- <- <-. split; [lia|]. exists []. rewrite app_nil_r. repeat constructor.
    - destruct (c_obstacle cl) as [ob|] eqn:Ob; [|discriminate].
      assert (Nh' : forall cl0 h p i, In cl0 todo -> c_obstacle cl0 <> Some (HullPolygon h p i)) by (intros; apply Nh; right; assumption).
      assert (Fin : forall counter' out2, Forall2 (convexified counter' c) todo out2 -> Forall (fun d => forall z, hull_id d z -> counter' < z) out2).
      { intros counter' out2 F. apply Forall_forall. intros d Hd z (h & p & Ed). clear - F Hd Ed Nh'. induction F as [|a a' l l' R F IHF]; [destruct Hd|].
        destruct Hd as [<-|Hd]; [|apply IHF; [intros; apply Nh'; right; assumption|exact Hd]]. destruct R as (_ & _ & [R|(h' & p' & z' & R & Lz)]).
        - exfalso. rewrite R in Ed. apply (Nh' a h p (Some z)); [left; reflexivity|exact Ed].
        - rewrite R in Ed. injection Ed as _ _ <-. lia. }
      assert (Weak : forall c1 c2 l l', c1 <= c2 -> Forall2 (convexified c2 c) l l' -> Forall2 (convexified c1 c) l l').
      { intros c1 c2 l l' Lc F. induction F as [|a a' l l' R F IHF]; constructor; [|exact IHF]. destruct R as (R1 & R2 & [R|(h & p & z & R & Lz)]); split; auto; split; auto.
        right. exists h, p, z. split; [exact R|lia]. }
      assert (Keep : forall cl1, c_name cl1 = c_name cl -> c_obstacles cl1 = c_obstacles cl -> c_obstacle cl1 = c_obstacle cl ->
          convexify M Sh op x xg counter (before ++ [cl1]) todo = Val (c, b, out) ->
          counter <= c /\ exists out2, out = before ++ out2 /\ Forall2 (convexified counter c) (cl :: todo) out2 /\
            ForallOrdPairs (fun a d => forall y z, hull_id a y -> hull_id d z -> y < z) out2).
      { intros cl1 K1 K2 K3 H1. apply IH in H1 as (A & out2 & E & F & O); [|exact Nh']. split; [exact A|]. exists (cl1 :: out2).
        split; [rewrite E, <- app_assoc; reflexivity|]. split; [constructor; [split; auto|exact F]|]. constructor; [|exact O].
        apply Forall_forall. intros d _ y z (h & p & Ed) _. exfalso. rewrite K3 in Ed. apply (Nh cl h p (Some y)); [left; reflexivity|exact Ed]. }
      destruct (obst_is_convex M Sh op ob); [apply (Keep cl); auto|].
      destruct (op_late op _).
      + injection H as <- <- <-. split; [lia|]. exists (cl :: todo). split; [reflexivity|]. split.
        * clear. induction (cl :: todo); constructor; [split; auto|assumption].
        * assert (Q : forall a y, In a (cl :: todo) -> ~ hull_id a y) by (intros a y I (h & p & E); apply (Nh a h p (Some y) I E)).
          revert Q. clear. induction (cl :: todo) as [|a l IHl]; intros Q; constructor.
          -- apply Forall_forall. intros d _ y z Hy. exfalso. apply (Q a y); [left; reflexivity|exact Hy].
          -- apply IHl. intros a' y I. apply Q. right. exact I.
      + destruct (read_polygon M Sh cl) as [cl1 [g|]] eqn:Rd; [|discriminate]. obinv H.
        pose proof (read_cache M Sh cl) as (Q1 & Q2 & Q3 & _). rewrite Rd in *. cbn [fst] in *. destruct (_ && _).
        * obinv H. cbn [set_id] in H. apply IH in H as (A & out2 & Eo & F & O); [|exact Nh']. split; [lia|]. eexists (_ :: out2).
          split; [rewrite Eo, <- app_assoc; reflexivity|]. split.
          -- constructor; [|apply (Weak _ (counter + 1)); [lia|exact F]]. split; [exact Q1|]. split; [exact Q2|]. right. cbn. do 3 eexists. split; [reflexivity|lia].
          -- constructor; [|exact O]. apply Forall_forall. intros d Hd y z (h & p & Ey) Hz. cbn in Ey. injection Ey as _ _ <-.
             specialize (Fin _ _ F). rewrite Forall_forall in Fin. apply (Fin d Hd z Hz).
        * apply (Keep cl1); auto.
  Qed.

  (** *** the whole call *)
  Definition start (op : options Obs G) (counter : Z) : Z := match op_workspace op with None => counter + 1 | Some _ => counter end.
  Lemma call_ids op fuel counter x xg obs a : call op fuel counter x xg obs = Val a -> a_flag a <> INCOMPLETE ->
    exists hi h cls, start op counter <= hi /\ hi <= a_counter a /\ J op (start op counter) hi h /\ Forall (backed h) cls /\ Forall (named M) cls /\
      Forall2 (convexified hi (a_counter a)) cls (a_clusters a) /\
      ForallOrdPairs (fun a d => forall y z, hull_id a y -> hull_id d z -> y < z) (a_clusters a) /\ (op_make_convex op = false -> cls = a_clusters a).
  Proof.
    unfold cluster_and_starify. fold (start op counter). set (lo := start op counter). intros H Fl. obinv H. destruct a0 as [k|]; [|injection H as <-; exfalso; apply Fl; reflexivity].
    obinv H. destruct a0 as [c1 cls]. cbv zeta in H. obinv H. destruct a0 as [out b]. obinv H. destruct a0 as [c2 n its'|c2 n its' cls2].
    { injection H as <-. exfalso. apply Fl. reflexivity. }
    destruct (first_inv M Sh setl setl_ok _ _ _ _ _ _ _ _ _ _ E0 E1) as (D & _ & I & _).
    assert (J0 : J op lo lo []) by (constructor; [constructor|constructor|intros _ c d z []]).
    destruct (first_clusters_ids op x xg k lo obs lo 0 c1 cls [] (Z.le_refl _) J0 E0) as [L1 J1]. rewrite app_nil_r in J1.
    assert (B1 : Forall (backed (rev cls)) out).
    { apply (gic_ids (rev cls) cls out b (done_has M Sh _ D) E1); [intros z Hz; apply in_rev; rewrite rev_involutive; exact Hz|apply J1]. }
    destruct (rounds_ids op x xg obs k lo _ _ _ _ _ _ _ _ _ _ _ I L1 J1 B1 E2) as (L2 & h & J2 & B2 & N2).
    assert (Nh : forall cl h p i, In cl cls2 -> c_obstacle cl <> Some (HullPolygon h p i)).
    { intros cl g p i Hc Eq. rewrite Forall_forall in B2. destruct (B2 cl Hc) as [(d & Hd & _ & _ & Ed)|(l & _ & ->)].
      - destruct J2 as [Or _ _]. rewrite Forall_forall in Or. specialize (Or d Hd). unfold origin in Or. rewrite <- Ed, Eq in Or. exact Or.
      - cbn in Eq. destruct l as [|o [|? ?]]; discriminate. }
    assert (Same : forall l c c' : list cluster, True -> Forall2 (convexified c2 c2) l l) by (intros l _ _ _; induction l; constructor; [split; auto|assumption]).
    destruct (op_make_convex op) eqn:Mc.
    - obinv H. destruct a0 as [[c3 t] cls3]. apply convexify_ids in E3 as (L3 & out2 & Eo & F & O); [|exact Nh]. cbn [app] in Eo. subst out2.
      exists c2, h, cls2. destruct t; injection H as <-; cbn [a_counter a_clusters]; (repeat (split; [assumption || lia|])); discriminate.
    - injection H as <-. exists c2, h, cls2. cbn [a_counter a_clusters]. repeat (split; [assumption || lia|]). split; [apply (Same _ [] []); exact Logic.I|]. split; [|reflexivity].
      revert Nh. clear. induction cls2 as [|c l IH]; intros Nh; constructor.
      + apply Forall_forall. intros d _ y z (g & p & E). exfalso. apply (Nh c g p (Some y)); [left; reflexivity|exact E].
      + apply IH. intros cl g p i Hc. apply Nh. right. exact Hc.
  Qed.

  (** C84: a combination keeps the id its name had in previous_clusters *)
  Theorem C84_id_kept_partial : forall op fuel counter x xg obs a, call op fuel counter x xg obs = Val a -> a_flag a <> INCOMPLETE -> one_per_name op ->
    forall c ms h xr i p z, In c (a_clusters a) -> c_obstacle c = Some (Combination ms h xr i) ->
      given op p -> c_name p = c_name c -> has_id p z -> issued counter z -> i = Some z.
  Proof.
    intros op fuel counter x xg obs a H Fl One c ms h xr i p z Hc Ec Gp Nm Ip Sp.
    destruct (call_ids _ _ _ _ _ _ _ H Fl) as (hi & hist & cls & _ & _ & [Or _ _] & B & _ & F & _ & _).
    assert (X : exists d, convexified hi (a_counter a) d c /\ In d cls).
    { clear - F Hc. induction F as [|d c' l l' R F IH]; [destruct Hc|]. destruct Hc as [<-|Hc]; [exists d; split; [exact R|left; reflexivity]|].
      destruct (IH Hc) as (e & A & B). exists e. split; [exact A|right; exact B]. }
    destruct X as (d & (N1 & _ & [O1|(? & ? & ? & O1 & _)]) & Hd); [|congruence].
    rewrite Forall_forall in B, Or. destruct (B d Hd) as [(e & He & N2 & _ & O2)|(l & _ & ->)]; [|rewrite Ec in O1; cbn in O1; destruct l as [|? [|? ?]]; discriminate].
    specialize (Or e He). unfold origin in Or. rewrite <- O2, <- O1, Ec in Or. destruct Or as [(q & Gq & Nq & Q)|[Q _]].
    - assert (p = q) as ->; [|apply Q; [exact Ip|unfold issued, start in *; destruct (op_workspace op); lia]].
      destruct Gp as (l & El & Hp), Gq as (l' & El' & Hq). assert (l' = l) by congruence. subst l'. specialize (One l El).
      assert (Same : c_name p = c_name q) by congruence. clear - One Hp Hq Same. induction l as [|y l IH]; [destruct Hp|]. cbn in One. inversion One as [|? ? O1 O2]; subst.
      destruct Hp as [->|Hp], Hq as [->|Hq]; [reflexivity| | |apply IH; assumption]; exfalso; apply O1.
      + rewrite Same. apply in_map, Hq.
      + rewrite <- Same. apply in_map, Hp.
    - exfalso. apply (Q p Gp). congruence.
  Qed.

  (** C89 *)
  (** what the caller is expected to know: obstacle ids differ and were issued; the same for the previous cluster obstacles, where an
      id shared with an obstacle means that this obstacle was the whole cluster *)
  Record in_order (counter : Z) (obs : list Obs) (previous : option (list cluster)) : Prop := {
    io_counter : 0 <= counter;
    io_obs : NoDup (map (ob_id M) obs);
    io_issued : forall o, In o obs -> exists z, ob_id M o = Some z /\ issued counter z;
    io_names : forall l, previous = Some l -> NoDup (map c_name l);
    io_prev : forall l p, previous = Some l -> In p l -> exists z, has_id p z /\ issued counter z;
    io_once : forall l p q z, previous = Some l -> In p l -> In q l -> has_id p z -> has_id q z -> c_name p = c_name q;
    io_own : forall l p o z, previous = Some l -> In p l -> In o obs -> has_id p z -> ob_id M o = Some z -> c_name p = name_of [Some z] }.

  Lemma names_distinct obs cls : Permutation (flat_map c_obstacles cls) obs -> NoDup (map (ob_id M) obs) -> Forall (named M) cls ->
    Forall (fun c : cluster => c_obstacles c <> []) cls -> NoDup (map c_name cls).
  Proof.
    intros P N. assert (N' : NoDup (map (ob_id M) (flat_map c_obstacles cls))) by (eapply Permutation_NoDup; [apply Permutation_map, Permutation_sym, P|exact N]).
    clear P N. induction cls as [|c cls IH]; intros Nm Ne; [constructor|]. inversion Nm as [|? ? M1 M2]; inversion Ne as [|? ? E1 E2]; subst.
    cbn [flat_map] in N'. rewrite map_app in N'. cbn [map]. constructor.
    - intros I. apply in_map_iff in I as (d & Nd & Hd). rewrite Forall_forall in M2. specialize (M2 d Hd). unfold named in *. rewrite M1, M2 in Nd. apply name_inj in Nd.
      destruct (c_obstacles c) as [|o l] eqn:Oc; [congruence|]. cbn [map app] in N'. inversion N' as [|? ? A _]; subst. apply A. apply in_app_iff. right.
      assert (X : In (ob_id M o) (map (ob_id M) (c_obstacles d))) by (rewrite Nd; left; reflexivity). apply in_map_iff in X as (o' & X1 & X2).
      rewrite <- X1. apply in_map. apply in_flat_map. eauto.
    - apply IH; [|exact M2|exact E2]. clear - N'. induction (map (ob_id M) (c_obstacles c)) as [|y l IHl]; [exact N'|]. cbn in N'. inversion N'; subst. apply IHl. assumption.
  Qed.

  Lemma answer_ids op fuel counter x xg obs a : call op fuel counter x xg obs = Val a -> a_flag a <> INCOMPLETE -> in_order counter obs (op_previous op) ->
    NoDup (map c_name (a_clusters a)) /\ Forall (named M) (a_clusters a) /\ counter <= a_counter a /\
    exists hi h, counter <= hi /\ hi <= a_counter a /\ J op (start op counter) hi h /\
      ForallOrdPairs (fun a d => forall y z, hull_id a y -> hull_id d z -> y < z) (a_clusters a) /\
      (forall c ob, In c (a_clusters a) -> c_obstacle c = Some ob -> exists z, obst_id M ob = Some z) /\
      forall c z, In c (a_clusters a) -> has_id c z ->
        (exists o, In o obs /\ c_obstacles c = [o] /\ ob_id M o = Some z) \/
        (exists p, given op p /\ c_name p = c_name c /\ has_id p z) \/
        (start op counter < z <= hi /\ exists d, In d h /\ c_name d = c_name c /\ fresh_id (start op counter) d z) \/
        (hi < z <= a_counter a /\ hull_id c z).
  Proof.
    intros H Fl [_ Io Is In1 Ip Ionce Iown]. pose proof (C69_no_obstacle_lost_partial M Sh setl setl_ok _ _ _ _ _ _ _ H Io) as Pm.
    destruct (call_ids _ _ _ _ _ _ _ H Fl) as (hi & hist & cls & L1 & L2 & Jh & B & N & F & O & _).
    assert (Lo : counter <= start op counter) by (unfold start; destruct (op_workspace op); lia).
    assert (X : forall c, In c (a_clusters a) -> exists d, convexified hi (a_counter a) d c /\ In d cls).
    { intros c Hc. clear - F Hc. induction F as [|d c' l l' R F IH]; [destruct Hc|]. destruct Hc as [<-|Hc]; [exists d; split; [exact R|left; reflexivity]|].
      destruct (IH Hc) as (e & A & B). exists e. split; [exact A|right; exact B]. }
    pose proof (backed_nonempty _ _ _ _ _ Jh B) as Ne. rewrite Forall_forall in B, N, Ne.
    assert (Nm : Forall (named M) (a_clusters a)).
    { apply Forall_forall. intros c Hc. destruct (X c Hc) as (d & (N1 & O1 & _) & Hd). specialize (N d Hd). unfold named in *. rewrite N1, O1. exact N. }
    split; [|split; [exact Nm|split; [lia|]]].
    { apply (names_distinct obs); [exact Pm|exact Io|exact Nm|]. apply Forall_forall. intros c Hc. destruct (X c Hc) as (d & (_ & O1 & _) & Hd). rewrite O1. apply Ne, Hd. }
    exists hi, hist. split; [lia|]. split; [exact L2|]. split; [exact Jh|]. split; [exact O|]. split.
    { intros c ob Hc Eo. destruct (X c Hc) as (d & (N1 & O1 & [Q|(g & p & z' & Q & Lz)]) & Hd); [|rewrite Q in Eo; injection Eo as <-; cbn; eauto].
      rewrite Q in Eo. assert (Orig : forall o xr, ob = Original o xr -> c_obstacles c = [o] -> exists z, obst_id M ob = Some z).
      { intros o xr -> Eq. destruct (Is o) as (z & Ez & _); [|exists z; exact Ez]. apply (Permutation_in o Pm). apply in_flat_map. exists c. split; [exact Hc|]. rewrite Eq. left. reflexivity. }
      destruct (B d Hd) as [(e & He & N2 & O2 & Q2)|(l & _ & ->)].
      - destruct Jh as [Or _ _]. rewrite Forall_forall in Or. specialize (Or e He). unfold origin in Or. rewrite <- Q2, Eo in Or. destruct ob as [o xr|ms g xr i|]; [| |destruct Or].
        + apply (Orig o xr eq_refl). rewrite O1, O2. exact Or.
        + cbn. destruct Or as [(q & (l & El & Hq) & Nq & K)|(_ & y & Ey & Ly)]; [|eauto]. destruct (Ip l q El Hq) as (y & Hy & Sy). exists y. apply K; [exact Hy|unfold issued in *; lia].
      - cbn in Eo. destruct l as [|o [|? ?]]; try discriminate. injection Eo as <-. apply (Orig o None eq_refl). exact O1. }
    intros c z Hc (ob & Eo & Ez). destruct (X c Hc) as (d & (N1 & O1 & [Q|(g & p & z' & Q & Lz)]) & Hd).
    - rewrite Q in Eo. assert (Orig : forall o xr, ob = Original o xr -> c_obstacles c = [o] -> exists o, In o obs /\ c_obstacles c = [o] /\ ob_id M o = Some z).
      { intros o xr -> Eq. exists o. split; [|split; [exact Eq|exact Ez]]. apply (Permutation_in o Pm). apply in_flat_map. exists c. split; [exact Hc|]. rewrite Eq. left. reflexivity. }
      destruct (B d Hd) as [(e & He & N2 & O2 & Q2)|(l & _ & ->)].
      + destruct Jh as [Or _ _]. rewrite Forall_forall in Or. specialize (Or e He). unfold origin in Or. rewrite <- Q2, Eo in Or. destruct ob as [o xr|ms g xr i|]; [| |destruct Or].
        * left. apply (Orig o xr eq_refl). rewrite O1, O2. exact Or.
        * cbn in Ez. subst i. destruct Or as [(q & Gq & Nq & K)|(_ & y & Ey & Ly)].
          -- right. left. exists q. split; [exact Gq|]. split; [congruence|]. destruct Gq as (l & El & Hq). destruct (Ip l q El Hq) as (y & Hy & Sy).
             assert (Q' : Some z = Some y) by (apply K; [exact Hy|unfold issued in *; lia]). injection Q' as ->. exact Hy.
          -- injection Ey as <-. right. right. left. split; [exact Ly|]. exists e. split; [exact He|]. split; [congruence|].
             exists ms, g, xr. split; [congruence|lia].
      + left. cbn in Eo. destruct l as [|o [|? ?]]; try discriminate. injection Eo as <-. apply (Orig o None eq_refl). exact O1.
    - right. right. right. rewrite Q in Eo. injection Eo as <-. cbn in Ez. injection Ez as ->. split; [lia|]. exists g, p. exact Q.
  Qed.

  Lemma unique_ids : forall op fuel counter x xg obs a, call op fuel counter x xg obs = Val a -> a_flag a <> INCOMPLETE ->
    in_order counter obs (op_previous op) ->
    (forall i j ci cj z, i <> j -> nth_error (a_clusters a) i = Some ci -> nth_error (a_clusters a) j = Some cj -> has_id ci z -> has_id cj z -> False) /\
    (forall c o z, In c (a_clusters a) -> In o obs -> has_id c z -> ob_id M o = Some z -> c_obstacles c = [o]).
  Proof.
    intros op fuel counter x xg obs a H Fl Io. destruct (answer_ids _ _ _ _ _ _ _ H Fl Io) as (Nd & Nm & La & hi & h & L1 & L2 & Jh & O & Hid & S).
    assert (Lo : counter <= start op counter) by (unfold start; destruct (op_workspace op); lia). rewrite Forall_forall in Nm.
    assert (Sh1 : forall o z, In o obs -> ob_id M o = Some z -> 0 < z <= counter).
    { intros o z Ho Ez. destruct (io_issued _ _ _ Io o Ho) as (y & Ey & Sy). assert (y = z) by congruence. subst. exact Sy. }
    assert (Sh2 : forall p z, given op p -> has_id p z -> 0 < z <= counter).
    { intros p z (l & El & Hp) (ob & E1 & E2). destruct (io_prev _ _ _ Io l p El Hp) as (y & (ob' & E3 & E4) & Sy). assert (y = z) by congruence. subst. exact Sy. }
    assert (Nam : forall c o, In c (a_clusters a) -> c_obstacles c = [o] -> c_name c = name_of [ob_id M o]).
    { intros c o Hc E. rewrite (Nm c Hc), E. reflexivity. }
    assert (Ai : all_issued op (start op counter)).
    { intros p (l & El & Hp). destruct (io_prev _ _ _ Io l p El Hp) as (y & Hy & Sy). exists y. split; [exact Hy|]. unfold issued in *. lia. }
    split.
    - assert (Key : forall ci cj z, In ci (a_clusters a) -> In cj (a_clusters a) -> has_id ci z -> has_id cj z -> c_name ci <> c_name cj ->
          (hull_id ci z -> hull_id cj z -> False) -> False).
      { intros ci cj z Hi Hj Ii Ij N Hh.
        destruct (S ci z Hi Ii) as [(o & Ho & Eo & Eid)|[(p & Gp & Np & Idp)|[(Lz & d & Hd & Nd1 & Fd)|(Lz & Hz)]]];
        destruct (S cj z Hj Ij) as [(o' & Ho' & Eo' & Eid')|[(p' & Gp' & Np' & Idp')|[(Lz' & d' & Hd' & Nd' & Fd')|(Lz' & Hz')]]];
          try (pose proof (Sh1 _ _ Ho Eid)); try (pose proof (Sh2 _ _ Gp Idp)); try (pose proof (Sh1 _ _ Ho' Eid')); try (pose proof (Sh2 _ _ Gp' Idp')); try lia.
        - apply N. rewrite (Nam ci o Hi Eo), (Nam cj o' Hj Eo'). congruence.
        - destruct Gp' as (l & El & Hp). pose proof (io_own _ _ _ Io l p' o z El Hp Ho Idp' Eid) as K. apply N. rewrite <- Np', K, (Nam ci o Hi Eo), Eid. reflexivity.
        - destruct Gp as (l & El & Hp). pose proof (io_own _ _ _ Io l p o' z El Hp Ho' Idp Eid') as K. apply N. rewrite <- Np, K, (Nam cj o' Hj Eo'), Eid'. reflexivity.
        - destruct Gp as (l & El & Hp), Gp' as (l' & El' & Hp'). assert (l' = l) by congruence. subst l'. apply N. rewrite <- Np, <- Np'. apply (io_once _ _ _ Io l p p' z); assumption.
        - apply N. rewrite <- Nd1, <- Nd'. apply (j_once _ _ _ _ Jh Ai d d' z); assumption.
        - apply Hh; assumption. }
      intros i j ci cj z Nij Ei Ej Ii Ij. apply (Key ci cj z (nth_error_In _ _ Ei) (nth_error_In _ _ Ej) Ii Ij).
      + intros Q. apply Nij. apply (proj1 (NoDup_nth_error (map c_name (a_clusters a))) Nd); [rewrite map_length; apply nth_error_Some; congruence|].
        rewrite !nth_error_map, Ei, Ej. cbn. congruence.
      + clear - O Nij Ei Ej. intros A B. revert i j Nij Ei Ej. induction O as [|c l Fc O IH]; intros [|i] [|j] Nij Ei Ej; cbn in *; try discriminate; try lia.
        * injection Ei as ->. apply nth_error_In in Ej. rewrite Forall_forall in Fc. specialize (Fc cj Ej z z A B). lia.
        * injection Ej as ->. apply nth_error_In in Ei. rewrite Forall_forall in Fc. specialize (Fc ci Ei z z B A). lia.
        * apply (IH i j); [lia|exact Ei|exact Ej].
    - intros c o z Hc Ho Ic Eo. pose proof (Sh1 o z Ho Eo) as Lz.
      destruct (S c z Hc Ic) as [(o' & Ho' & Eo' & Eid)|[(p & (l & El & Hp) & Np & Idp)|[(K & _)|(K & _)]]]; try lia.
      + rewrite Eo'. f_equal. assert (Q : [o'] = [o]); [|congruence]. apply (ids_inj M obs); [apply Io|intros y [<-|[]]; exact Ho'|intros y [<-|[]]; exact Ho|cbn; congruence].
      + pose proof (io_own _ _ _ Io l p o z El Hp Ho Idp Eo) as Q. rewrite Np, (Nm c Hc) in Q. apply name_inj in Q.
        assert (Pm := C69_no_obstacle_lost_partial M Sh setl setl_ok _ _ _ _ _ _ _ H (io_obs _ _ _ Io)).
        apply (ids_inj M obs); [apply Io| |intros y [<-|[]]; exact Ho|cbn; congruence].
        intros y Hy. apply (Permutation_in y Pm). apply in_flat_map. eauto.
  Qed.

  Lemma carries_on : forall op fuel counter x xg obs a, call op fuel counter x xg obs = Val a -> a_flag a <> INCOMPLETE -> uncut op a ->
    (forall p q, sh_intersects Sh p q = sh_intersects Sh q p) -> in_order counter obs (op_previous op) ->
    forall counter' obs', a_counter a <= counter' -> NoDup (map (ob_id M) obs') ->
      (forall o, In o obs' -> In o obs \/ exists z, ob_id M o = Some z /\ a_counter a < z <= counter') ->
      in_order counter' obs' (Some (a_clusters a)).
  Proof.
    intros op fuel counter x xg obs a H Fl Un Sy Io counter' obs' Lc Nd' Ob. destruct (answer_ids _ _ _ _ _ _ _ H Fl Io) as (Nd & Nm & La & hi & h & L1 & L2 & Jh & O & Hid & S).
    destruct (unique_ids _ _ _ _ _ _ _ H Fl Io) as [U1 U2].
    assert (Lo : counter <= start op counter) by (unfold start; destruct (op_workspace op); lia). rewrite Forall_forall in Nm.
    assert (Bd : forall c z, In c (a_clusters a) -> has_id c z -> 0 < z <= a_counter a).
    { pose proof (io_counter _ _ _ Io) as C0. intros c z Hc Ic. destruct (S c z Hc Ic) as [(o & Ho & _ & Eid)|[(p & (l & El & Hp) & _ & (ob & E1 & E2))|[(K & _)|(K & _)]]]; try lia.
      - destruct (io_issued _ _ _ Io o Ho) as (y & Ey & [A B]). assert (y = z) by congruence. lia.
      - destruct (io_prev _ _ _ Io l p El Hp) as (y & (ob' & E3 & E4) & [A B]). assert (y = z) by congruence. lia. }
    constructor.
    - pose proof (io_counter _ _ _ Io). lia.
    - exact Nd'.
    - intros o Ho. destruct (Ob o Ho) as [Ho'|(z & Ez & Lz)].
      + destruct (io_issued _ _ _ Io o Ho') as (z & Ez & [A B]). exists z. split; [exact Ez|]. unfold issued. lia.
      + exists z. split; [exact Ez|]. unfold issued. pose proof (io_counter _ _ _ Io). lia.
    - intros l E. injection E as <-. exact Nd.
    - intros l p E Hp. injection E as <-. destruct (C71_feedback_partial M Sh setl setl_ok Sy _ _ _ _ _ _ _ H Fl Un) as [Q _].
      destruct (Q p Hp) as (k & ob & _ & Eo). destruct (Hid p ob Hp Eo) as (z & Ez). assert (Hz : has_id p z) by (exists ob; auto). exists z. split; [exact Hz|]. pose proof (Bd p z Hp Hz). unfold issued. lia.
    - intros l p q z E Hp Hq Ip Iq. injection E as <-. apply In_nth_error in Hp as [i Hi]. apply In_nth_error in Hq as [j Hj].
      destruct (Nat.eq_dec i j) as [->|N]; [congruence|]. exfalso. apply (U1 i j p q z N Hi Hj Ip Iq).
    - intros l p o z E Hp Ho Ip Eo. injection E as <-. destruct (Ob o Ho) as [Ho'|(y & Ey & Ly)].
      + rewrite (Nm p Hp), (U2 p o z Hp Ho' Ip Eo). cbn [map]. rewrite Eo. reflexivity.
      + exfalso. pose proof (Bd p z Hp Ip). assert (y = z) by congruence. lia.
  Qed.

  (** the counter never goes back *)
  Lemma set_id_counter c a : c <= fst (set_id c a).
  Proof. destruct a; cbn; lia. Qed.
  Lemma first_counter op x xg k : forall obs counter i c1 cls, first_clusters M Sh op x xg k counter i obs = Val (c1, cls) -> counter <= c1.
  Proof.
    induction obs as [|o obs IH]; intros counter i c1 cls H; cbn in H; [injection H as <- <-; lia|].
    obinv H. destruct a as [c2 cl]. obinv H. destruct a as [c3 cls']. injection H as <- <-. apply IH in E0. unfold first_cluster in E. obinvs E. destruct a5 as [h|].
    - pose proof (set_id_counter counter a4) as Q. destruct (set_id counter a4) as [c' oid]. injection E as <- <-. cbn in Q. lia.
    - destruct (is_star_class (ob_class M o)); [|discriminate]. injection E as <- <-. lia.
  Qed.
  Lemma round_counter op x xg all k n : forall todo i counter h c' h' cls q, starify_round M Sh op x xg all k n i counter h todo = Val (c', h', cls, q) -> counter <= c'.
  Proof.
    induction todo as [|cl todo IH]; intros i counter h c' h' cls q H; cbn in H; [injection H as <- <- <- <-; lia|].
    destruct (history_lookup (c_name cl) h) as [old|].
    - obinv H. destruct a as [[[c1 h1] cls1] q1]. injection H as <- <- <- <-. eapply IH; eassumption.
    - obinv H. destruct a as [[c1 cl']|cl']; [|injection H as <- <- <- <-; lia]. obinv H. destruct a as [[[c2 h2] cls2] q2]. injection H as <- <- <- <-. apply IH in E0.
      unfold later_cluster in E. obinvs E. destruct (vanishing Sh _); [discriminate|]. cbv zeta in E. obinvs E.
      match type of E with context [set_id counter ?z] => pose proof (set_id_counter counter z) as Q; destruct (set_id counter z) as [c9 oid] end. injection E as <- <-. cbn in Q. lia.
  Qed.
  Lemma rounds_counter op x xg all k : forall f n counter h its cls ex c' e, rounds M Sh setl op x xg all k f n counter h its cls ex = Val e ->
    c' = (match e with Stopped c _ _ => c | Finished c _ _ _ => c end) -> counter <= c'.
  Proof.
    induction f as [|f IH]; intros n counter h its cls ex c' e H ->; cbn [rounds] in H; (destruct ex; [|injection H as <-; lia]); [discriminate|].
    destruct (op_late op (AtRound n)); [injection H as <-; lia|]. obinv H. destruct a as [[[c1 h1] cls1] q]. apply round_counter in E. destruct q; [injection H as <-; exact E|].
    obinv H. destruct a as [out1 b]. destruct (match op_max_iterations op with Some m0 => (m0 <=? S n)%nat | None => false end); [injection H as <-; exact E|].
    pose proof (IH _ _ _ _ _ _ _ _ H eq_refl). lia.
  Qed.
  Lemma flag_dec (f : flag) : {f = INCOMPLETE} + {f <> INCOMPLETE}.
  Proof. destruct f; [left|right|right]; congruence. Qed.

  Lemma incomplete_ids op fuel counter x xg obs a : call op fuel counter x xg obs = Val a -> a_flag a = INCOMPLETE ->
    a_clusters a = map (fun o => new_cluster M [o]) obs /\ counter <= a_counter a.
  Proof.
    unfold cluster_and_starify. fold (start op counter). set (lo := start op counter). assert (Lo : counter <= lo) by (unfold lo, start; destruct (op_workspace op); lia).
    intros H Fl. obinv H. destruct a0 as [k|]; [|injection H as <-; split; [reflexivity|exact Lo]].
    obinv H. destruct a0 as [c1 cls]. cbv zeta in H. obinv H. destruct a0 as [out b]. obinv H. destruct a0 as [c2 n its'|c2 n its' cls2].
    - injection H as <-. split; [reflexivity|]. cbn [a_counter default_result].
      destruct (first_inv M Sh setl setl_ok _ _ _ _ _ _ _ _ _ _ E0 E1) as (D & _ & I & _).
      pose proof (first_counter _ _ _ _ _ _ _ _ _ E0). pose proof (rounds_counter _ _ _ _ _ _ _ _ _ _ _ _ _ _ E2 eq_refl). lia.
    - exfalso. destruct (op_make_convex op); [|injection H as <-; discriminate]. obinv H. destruct a0 as [[c3 t] cls3]. destruct t; injection H as <-; discriminate.
  Qed.

  (** in every answer *)
  Theorem C89_unique_ids : forall op fuel counter x xg obs a, call op fuel counter x xg obs = Val a -> in_order counter obs (op_previous op) ->
    (forall i j ci cj z, i <> j -> nth_error (a_clusters a) i = Some ci -> nth_error (a_clusters a) j = Some cj -> has_id ci z -> has_id cj z -> False) /\
    (forall c o z, In c (a_clusters a) -> In o obs -> has_id c z -> ob_id M o = Some z -> c_obstacles c = [o]).
  Proof.
    intros op fuel counter x xg obs a H Io. destruct (flag_dec (a_flag a)) as [Fl|Fl]; [|apply (unique_ids op fuel counter x xg obs a H Fl Io)].
    destruct (incomplete_ids _ _ _ _ _ _ _ H Fl) as [-> _]. split.
    - intros i j ci cj z N Hi Hj Ii Ij. rewrite nth_error_map in Hi, Hj. destruct (nth_error obs i) as [oi|] eqn:Ei; [|discriminate]. destruct (nth_error obs j) as [oj|] eqn:Ej; [|discriminate].
      cbn in Hi, Hj. injection Hi as <-. injection Hj as <-. destruct Ii as (b1 & B1 & C1), Ij as (b2 & B2 & C2). cbn in B1, B2. injection B1 as <-. injection B2 as <-. cbn in C1, C2.
      apply N. apply (proj1 (NoDup_nth_error (map (ob_id M) obs)) (io_obs _ _ _ Io)); [rewrite map_length; apply nth_error_Some; congruence|].
      rewrite !nth_error_map, Ei, Ej. cbn. congruence.
    - intros c o z Hc Ho (b1 & B1 & C1) Eo. apply in_map_iff in Hc as (o' & <- & Ho'). cbn in B1. injection B1 as <-. cbn in *.
      apply (ids_inj M obs); [apply Io|intros y [<-|[]]; exact Ho'|intros y [<-|[]]; exact Ho|cbn; congruence].
  Qed.

  (** the answer can be passed on: the conditions hold again, also when obstacles left and new ones were created *)
  Theorem C89_carries_on : forall op fuel counter x xg obs a, call op fuel counter x xg obs = Val a -> uncut op a ->
    (forall p q, sh_intersects Sh p q = sh_intersects Sh q p) -> in_order counter obs (op_previous op) ->
    forall counter' obs', a_counter a <= counter' -> NoDup (map (ob_id M) obs') ->
      (forall o, In o obs' -> In o obs \/ exists z, ob_id M o = Some z /\ a_counter a < z <= counter') ->
      in_order counter' obs' (Some (a_clusters a)).
  Proof.
    intros op fuel counter x xg obs a H Un Sy Io counter' obs' Lc Nd Ob. destruct (flag_dec (a_flag a)) as [Fl|Fl]; [|eapply carries_on; eassumption].
    destruct (incomplete_ids _ _ _ _ _ _ _ H Fl) as [E La]. destruct (C89_unique_ids _ _ _ _ _ _ _ H Io) as [U1 U2]. rewrite E in *.
    assert (Hid : forall c z, In c (map (fun o => new_cluster M [o]) obs) -> has_id c z -> exists o, In o obs /\ c = new_cluster M [o] /\ ob_id M o = Some z).
    { intros c z Hc (b & B & C). apply in_map_iff in Hc as (o & <- & Ho). cbn in B. injection B as <-. exists o. auto. }
    pose proof (io_counter _ _ _ Io) as C0. constructor.
    - lia.
    - exact Nd.
    - intros o Ho. destruct (Ob o Ho) as [Ho'|(z & Ez & Lz)].
      + destruct (io_issued _ _ _ Io o Ho') as (z & Ez & [A B]). exists z. split; [exact Ez|]. unfold issued. lia.
      + exists z. split; [exact Ez|]. unfold issued. lia.
    - intros l El. injection El as <-. rewrite map_map. cbn [new_cluster c_name]. pose proof (io_obs _ _ _ Io) as N. clear - N. induction obs as [|o l IH]; [constructor|].
      cbn in N. inversion N as [|? ? N1 N2]; subst. cbn [map]. constructor; [|apply IH, N2]. intros X. apply in_map_iff in X as (o' & X1 & X2). apply name_inj in X1. cbn in X1. injection X1 as X1.
      apply N1. rewrite <- X1. apply in_map, X2.
    - intros l p El Hp. injection El as <-. apply in_map_iff in Hp as (o & <- & Ho). destruct (io_issued _ _ _ Io o Ho) as (z & Ez & [A B]). exists z.
      split; [eexists; split; [reflexivity|exact Ez]|]. unfold issued. lia.
    - intros l p q z El Hp Hq Ip Iq. injection El as <-. apply In_nth_error in Hp as [i Hi]. apply In_nth_error in Hq as [j Hj].
      destruct (Nat.eq_dec i j) as [->|N]; [congruence|]. exfalso. apply (U1 i j p q z N Hi Hj Ip Iq).
    - intros l p o z El Hp Ho Ip Eo. injection El as <-. destruct (Hid p z Hp Ip) as (o' & Ho' & -> & Ez). cbn. rewrite Ez. reflexivity.
  Qed.
End Ids.
