(** Lemmas about get_intersection_clusters and cluster names. *)
From Coq Require Import Ascii String DecimalString DecimalZ Reals List Bool Arith ZArith Lia Permutation.
From Verif Require Import Num Spec M_Cg M_Motion M_Obstacle M_Clusters.
Import ListNotations.

(** *** linked *)
Lemma linked_dom n r i j : linked n r i j -> (i < n /\ j < n)%nat.
Proof. induction 1; tauto. Qed.
Lemma linked_trans n r i j k : linked n r i j -> linked n r j k -> linked n r i k.
Proof. intros A B. revert A. induction B as [|j' a b _ IH Hb Hr]; intros A; [assumption|]. eapply linked_step; [apply IH; exact A|exact Hb|exact Hr]. Qed.
Lemma linked_sym n r i j : linked n r i j -> linked n r j i.
Proof.
  induction 1 as [i Hi|i j k Hij IH Hk Hr]; [constructor; exact Hi|].
  apply (linked_trans n r k j i); [|exact IH]. pose proof (linked_dom _ _ _ _ Hij).
  eapply linked_step; [apply linked_refl; exact Hk|tauto|tauto].
Qed.

(** *** list updates *)
Lemma set_nth_length v : forall L j, List.length (set_nth j v L) = List.length L.
Proof. induction L as [|h t IH]; intros [|j]; cbn; auto. Qed.
Lemma nth_set_nth v : forall L j k, (j < List.length L)%nat ->
  nth k (set_nth j v L) [] = if Nat.eqb k j then v else nth k L [].
Proof.
  induction L as [|h t IH]; intros j k H; [cbn in H; lia|]. destruct j as [|j], k as [|k]; cbn; auto.
  rewrite IH by (cbn in H; lia). reflexivity.
Qed.
Lemma find_down_some f : forall i j, find_down f i = Some j -> (j < i)%nat /\ f j = true.
Proof. induction i as [|i IH]; cbn; [discriminate|]. intros j. destruct (f i) eqn:E; intros H; [injection H as <-; auto|]. destruct (IH j H). split; [lia|assumption]. Qed.
Lemma find_down_none f : forall i, find_down f i = None -> forall j, (j < i)%nat -> f j = false.
Proof.
  induction i as [|i IH]; cbn; [lia|]. destruct (f i) eqn:E; [discriminate|]. intros H j Hj.
  destruct (Nat.eq_dec j i) as [->|]; [exact E|]. apply IH; [exact H|lia].
Qed.
Lemma share_true a b : share a b = true <-> exists x, In x a /\ In x b.
Proof.
  unfold share. rewrite existsb_exists. split.
  - intros (x & Hx & H). apply existsb_exists in H as (y & Hy & E). apply Nat.eqb_eq in E as <-. eauto.
  - intros (x & Ha & Hb). exists x. split; [exact Ha|]. apply existsb_exists. exists x. split; [exact Hb|apply Nat.eqb_refl].
Qed.
Lemma share_false a b : share a b = false -> forall x, In x a -> In x b -> False.
Proof. intros H x A B. assert (share a b = true) by (apply share_true; eauto). congruence. Qed.

Section Merge.
  Variable inter : nat -> nat -> bool.
  Variable setl : list nat -> list nat.
  Hypothesis setl_ok : forall l, NoDup (setl l) /\ forall x, In x (setl l) <-> In x l.
  Variable n : nat.
  Definition touch (i j : nat) : Prop := (i < j < n)%nat /\ inter i j = true.

  Record inv (i : nat) (L : list (list nat)) : Prop := {
    i_len : List.length L = n;
    i_self : forall k, (k <= i)%nat -> (k < n)%nat -> In k (nth k L []);
    i_root : forall k, (k < n)%nat -> nth k L [] <> [] -> In k (nth k L []);
    i_conn : forall k a, In a (nth k L []) -> (k <= a < n)%nat /\ linked n touch k a;
    i_disj : forall f k a, (i < f)%nat -> f <> k -> In a (nth f L []) -> In a (nth k L []) -> False;
    i_edge : forall a b, touch a b -> exists k, (k < n)%nat /\ In a (nth k L []) /\ In b (nth k L []);
    i_nodup : forall k, NoDup (nth k L []);
    i_all : forall a, (a < n)%nat -> exists k, (k < n)%nat /\ In a (nth k L []) }.

  Lemma nth_beyond (L : list (list nat)) k : (List.length L <= k)%nat -> nth k L [] = [].
  Proof. apply nth_overflow. Qed.

  Lemma inv_step i L : (0 < i < n)%nat -> inv i L -> inv (i - 1) (merge_step setl L i).
  Proof.
    intros Hi [Hlen Hself Hroot Hconn Hdisj Hedge Hnd Hall]. unfold merge_step.
    destruct (find_down _ i) as [j|] eqn:F.
    - apply find_down_some in F as [Hj Hs]. apply share_true in Hs as (c & Cj & Ci).
      assert (Len2 : List.length (set_nth j (setl (nth j L [] ++ nth i L [])) L) = n) by (rewrite set_nth_length; exact Hlen).
      set (U := setl (nth j L [] ++ nth i L [])).
      assert (N : forall k, nth k (set_nth i [] (set_nth j U L)) [] = if Nat.eqb k i then [] else if Nat.eqb k j then U else nth k L []).
      { intros k. rewrite nth_set_nth by (subst U; rewrite Len2; lia). rewrite nth_set_nth by lia. reflexivity. }
      assert (UI : forall x, In x U <-> In x (nth j L []) \/ In x (nth i L [])).
      { intros x. unfold U. rewrite (proj2 (setl_ok _) x). apply in_app_iff. }
      assert (Ji : linked n touch j i).
      { apply (linked_trans n touch j c i); [apply (Hconn j c Cj)|]. apply linked_sym. apply (Hconn i c Ci). }
      constructor.
      + subst U. rewrite set_nth_length. exact Len2.
      + intros k Hk Kn. rewrite N. destruct (Nat.eqb_spec k i); [lia|]. destruct (Nat.eqb_spec k j) as [->|].
        * apply UI. left. apply Hself; lia.
        * apply Hself; lia.
      + intros k Kn. rewrite N. destruct (Nat.eqb_spec k i); [tauto|]. destruct (Nat.eqb_spec k j) as [->|].
        * intros _. apply UI. left. apply Hself; lia.
        * apply Hroot. exact Kn.
      + intros k a. rewrite N. destruct (Nat.eqb_spec k i); [intros []|]. destruct (Nat.eqb_spec k j) as [->|].
        * rewrite UI. intros [A|A].
          -- apply Hconn. exact A.
          -- destruct (Hconn i a A) as [B C]. split; [lia|]. apply (linked_trans n touch j i a); assumption.
        * apply Hconn.
      + intros f k a Hf Hfk. rewrite !N. destruct (Nat.eqb_spec f i); [intros []|]. destruct (Nat.eqb_spec k i); [intros _ []|].
        destruct (Nat.eqb_spec f j); [lia|]. assert (i < f)%nat by lia. destruct (Nat.eqb_spec k j) as [->|].
        * rewrite UI. intros A [B|B]; [apply (Hdisj f j a)|apply (Hdisj f i a)]; auto.
        * intros A B. apply (Hdisj f k a); auto.
      + intros a b T. destruct (Hedge a b T) as (k & Kn & A & B).
        destruct (Nat.eq_dec k i) as [->|Ki].
        * exists j. split; [lia|]. rewrite N. destruct (Nat.eqb_spec j i); [lia|]. rewrite Nat.eqb_refl, !UI. auto.
        * exists k. split; [exact Kn|]. rewrite N. destruct (Nat.eqb_spec k i); [lia|]. destruct (Nat.eqb_spec k j) as [->|]; [rewrite !UI|]; auto.
      + intros k. rewrite N. destruct (Nat.eqb_spec k i); [constructor|]. destruct (Nat.eqb_spec k j); [apply setl_ok|apply Hnd].
      + intros a Ha. destruct (Hall a Ha) as (k & Kn & A).
        destruct (Nat.eq_dec k i) as [->|Ki].
        * exists j. split; [lia|]. rewrite N. destruct (Nat.eqb_spec j i); [lia|]. rewrite Nat.eqb_refl, UI. auto.
        * exists k. split; [exact Kn|]. rewrite N. destruct (Nat.eqb_spec k i); [lia|]. destruct (Nat.eqb_spec k j) as [->|]; [rewrite UI|]; auto.
    - pose proof (find_down_none _ _ F) as D. constructor; auto.
      + intros k Hk. apply Hself. lia.
      + intros f k a Hf Hfk A B. destruct (Nat.eq_dec f i) as [->|]; [|apply (Hdisj f k a); auto; lia].
        destruct (lt_dec k i) as [K|K]; [|apply (Hdisj k i a); auto; lia].
        apply (share_false _ _ (D k K) a); assumption.
  Qed.

  Lemma seq_nth_map (f : nat -> list nat) k : nth k (map f (seq 0 n)) [] = if lt_dec k n then f k else [].
  Proof.
    destruct (lt_dec k n) as [H|H].
    - rewrite (nth_indep _ [] (f 0%nat)) by (rewrite map_length, seq_length; exact H). rewrite map_nth, seq_nth by exact H. reflexivity.
    - apply nth_overflow. rewrite map_length, seq_length. lia.
  Qed.
  Lemma in_idcs k a : (k < n)%nat -> In a (idcs_of inter n k) <-> a = k \/ touch k a.
  Proof.
    intros K. unfold idcs_of, touch. cbn [In]. rewrite filter_In, in_seq. split.
    - intros [->|[A B]]; [left; reflexivity|right; split; [lia|exact B]].
    - intros [->|[A B]]; [left; reflexivity|right; split; [lia|exact B]].
  Qed.
  Lemma inv_start : inv (n - 1) (map (idcs_of inter n) (seq 0 n)).
  Proof.
    constructor.
    - rewrite map_length, seq_length. reflexivity.
    - intros k _ Kn. rewrite seq_nth_map. destruct (lt_dec k n); [|lia]. left. reflexivity.
    - intros k Kn _. rewrite seq_nth_map. destruct (lt_dec k n); [|lia]. left. reflexivity.
    - intros k a. rewrite seq_nth_map. destruct (lt_dec k n) as [K|K]; [|intros []]. rewrite in_idcs by exact K.
      intros [->|T]; [split; [lia|constructor; exact K]|]. destruct T as [T1 T2]. split; [lia|].
      eapply linked_step; [constructor; exact K|lia|]. left. split; assumption.
    - intros f k a Hf Hfk. rewrite !seq_nth_map. destruct (lt_dec f n); [lia|intros []].
    - intros a b T. pose proof T as [T1 T2]. exists a. split; [lia|]. rewrite seq_nth_map. destruct (lt_dec a n); [|lia].
      rewrite !in_idcs by assumption. auto.
    - intros k. rewrite seq_nth_map. destruct (lt_dec k n) as [K|K]; [|constructor]. unfold idcs_of. constructor.
      + rewrite filter_In, in_seq. lia.
      + apply NoDup_filter, seq_NoDup.
    - intros a Ha. exists a. split; [exact Ha|]. rewrite seq_nth_map. destruct (lt_dec a n); [|lia]. left. reflexivity.
  Qed.
  Lemma inv_fold : forall m L, (m < n)%nat \/ m = 0%nat -> inv m L -> inv 0 (fold_left (merge_step setl) (rev (seq 1 m)) L).
  Proof.
    induction m as [|m IH]; intros L Hm HL; [exact HL|].
    rewrite seq_S, rev_app_distr. cbn [rev app fold_left]. apply IH; [lia|].
    replace (1 + m)%nat with (S m) by lia. replace m with (S m - 1)%nat at 1 by lia. apply inv_step; [lia|exact HL].
  Qed.
  Lemma merged_inv : inv 0 (merged inter setl n).
  Proof. unfold merged. apply inv_fold; [lia|apply inv_start]. Qed.

  Definition parts : list (list nat) := filter (fun l => match l with [] => false | _ => true end) (merged inter setl n).

  Lemma in_parts p : In p parts <-> p <> [] /\ exists k, (k < n)%nat /\ nth k (merged inter setl n) [] = p.
  Proof.
    unfold parts. rewrite filter_In. destruct merged_inv as [Hlen _ _ _ _ _ _ _]. split.
    - intros [A B]. split; [destruct p; congruence|]. destruct (In_nth _ _ [] A) as (k & K & E). exists k. split; [lia|exact E].
    - intros [A (k & K & E)]. split; [rewrite <- E; apply nth_In; lia|]. destruct p; [congruence|reflexivity].
  Qed.
  Lemma part_component p i j : In p parts -> In i p -> (In j p <-> linked n touch i j).
  Proof.
    intros P Hi. apply in_parts in P as [_ (k & K & <-)]. destruct merged_inv as [Hlen Hself Hroot Hconn Hdisj Hedge Hnd Hall].
    split.
    - intros Hj. apply (linked_trans n touch i k j); [apply linked_sym|]; apply Hconn; assumption.
    - induction 1 as [i Hin|i j m Hij IH Hm Hr]; [exact Hi|]. specialize (IH Hi).
      assert (Q : exists q, (q < n)%nat /\ In j (nth q (merged inter setl n) []) /\ In m (nth q (merged inter setl n) [])).
      { destruct Hr as [T|T]; destruct (Hedge _ _ T) as (q & Q & A & B); exists q; auto. }
      destruct Q as (q & Q & A & B). destruct (Nat.eq_dec q k) as [->|N]; [exact B|]. exfalso.
      destruct (Nat.eq_dec q 0) as [->|].
      + apply (Hdisj k 0%nat j); auto. lia.
      + apply (Hdisj q k j); auto. lia.
  Qed.
  Lemma parts_cover i : (i < n)%nat -> exists p, In p parts /\ In i p.
  Proof.
    intros Hi. destruct (i_all _ _ merged_inv i Hi) as (k & K & A). exists (nth k (merged inter setl n) []). split; [|exact A].
    apply in_parts. split; [intros E; rewrite E in A; destruct A|eauto].
  Qed.
  (* each part is headed by its smallest member, and the parts come in the order of these *)
  Lemma flat_disjoint : forall (L : list (list nat)) , (forall l, In l L -> NoDup l) ->
    (forall f k a, f <> k -> In a (nth f L []) -> In a (nth k L []) -> False) -> NoDup (concat L).
  Proof.
    induction L as [|l L IH]; intros H D; cbn [concat]; [constructor|].
    assert (ND : NoDup (concat L)).
    { apply IH; [intros; apply H; right; assumption|]. intros f k a F A B. apply (D (S f) (S k) a); cbn [nth]; auto. }
    assert (X : forall a, In a l -> ~ In a (concat L)).
    { intros a A B. apply in_concat in B as (q & Q & B). destruct (In_nth _ _ [] Q) as (k & K & E).
      apply (D 0%nat (S k) a); cbn [nth]; [lia|exact A|rewrite E; exact B]. }
    clear - ND X H. assert (N : NoDup l) by (apply H; left; reflexivity). clear H. induction l as [|a l IH]; [exact ND|].
    inversion N; subst. cbn [app]. constructor.
    - rewrite in_app_iff. intros [A|A]; [tauto|]. apply (X a); [left; reflexivity|exact A].
    - apply IH; [|assumption]. intros b B. apply X. right. exact B.
  Qed.
  Lemma concat_parts : concat parts = concat (merged inter setl n).
  Proof. unfold parts. induction (merged inter setl n) as [|[|a l] L IH]; cbn; [reflexivity|exact IH|]. rewrite IH. reflexivity. Qed.
  Lemma parts_perm : Permutation (concat parts) (seq 0 n).
  Proof.
    rewrite concat_parts. destruct merged_inv as [Hlen Hself Hroot Hconn Hdisj Hedge Hnd Hall].
    apply NoDup_Permutation.
    - apply flat_disjoint.
      + intros l Hl. destruct (In_nth _ _ [] Hl) as (k & _ & <-). apply Hnd.
      + intros f k a F A B. destruct (Nat.eq_dec f 0) as [->|]; [apply (Hdisj k 0%nat a); auto; lia|apply (Hdisj f k a); auto; lia].
    - apply seq_NoDup.
    - intros a. rewrite in_seq, in_concat. split.
      + intros (l & Hl & A). destruct (In_nth _ _ [] Hl) as (k & K & E). rewrite <- E in A. pose proof (Hconn k a A). lia.
      + intros H. destruct (Hall a) as (k & K & A); [lia|]. exists (nth k (merged inter setl n) []). split; [apply nth_In; lia|exact A].
  Qed.
  Lemma parts_nonempty p : In p parts -> p <> [].
  Proof. intros H. apply in_parts in H. tauto. Qed.
  Lemma concat_count (L : list (list nat)) : (forall p, In p L -> p <> []) -> (List.length L <= List.length (concat L))%nat.
  Proof.
    induction L as [|l L IH]; intros H; cbn; [lia|]. rewrite app_length. assert (l <> []) by (apply H; left; reflexivity).
    assert (List.length L <= List.length (concat L))%nat by (apply IH; intros; apply H; right; assumption). destruct l; [congruence|cbn; lia].
  Qed.
  Lemma concat_count_strict (L : list (list nat)) p : (forall p, In p L -> p <> []) -> In p L -> (2 <= List.length p)%nat ->
    (List.length L < List.length (concat L))%nat.
  Proof.
    intros H P Hp. apply in_split in P as (L1 & L2 & ->). rewrite concat_app, !app_length. cbn [concat List.length]. rewrite app_length.
    assert (A : (List.length L1 <= List.length (concat L1))%nat) by (apply concat_count; intros; apply H, in_or_app; auto).
    assert (B : (List.length L2 <= List.length (concat L2))%nat) by (apply concat_count; intros; apply H, in_or_app; right; right; assumption). lia.
  Qed.
  Lemma exists_true : intersections_exist inter n = true <-> exists i j, touch i j.
  Proof.
    unfold intersections_exist. rewrite existsb_exists. split.
    - intros (i & Hi & H). apply existsb_exists in H as (j & Hj & E). rewrite in_seq in Hi, Hj. exists i, j. split; [lia|exact E].
    - intros (i & j & Hij & E). exists i. rewrite in_seq. split; [lia|]. apply existsb_exists. exists j. rewrite in_seq. split; [lia|exact E].
  Qed.
  Lemma parts_fewer : intersections_exist inter n = true -> (List.length parts < n)%nat.
  Proof.
    intros H. apply exists_true in H as (i & j & T). pose proof T as [Tij _].
    destruct (parts_cover i) as (p & P & Hi); [lia|].
    assert (Hj : In j p). { apply (part_component p i j P Hi). eapply linked_step; [constructor; lia|lia|]. left. exact T. }
    rewrite <- (seq_length n 0) at 1. rewrite <- (Permutation_length parts_perm). apply (concat_count_strict _ p parts_nonempty P).
    destruct p as [|a [|b p]]; cbn; [destruct Hi| |lia]. destruct Hi as [<-|[]], Hj as [<-|[]]. lia.
  Qed.
  Lemma parts_le : (List.length parts <= n)%nat.
  Proof. rewrite <- (seq_length n 0) at 1. rewrite <- (Permutation_length parts_perm). apply concat_count, parts_nonempty. Qed.
  Lemma part_min p : In p parts -> exists r, In r p /\ forall a, In a p -> (r <= a)%nat.
  Proof.
    intros P. apply in_parts in P as [N (k & K & <-)]. exists k. split; [apply (i_root _ _ merged_inv); assumption|].
    intros a A. apply (i_conn _ _ merged_inv) in A. lia.
  Qed.
  Definition root_of (p : list nat) (r : nat) : Prop := In r p /\ forall a, In a p -> (r <= a)%nat.
  Lemma parts_sorted : ForallOrdPairs (fun p q => forall a b, root_of p a -> root_of q b -> (a < b)%nat) parts.
  Proof.
    assert (H : forall k, (k < n)%nat -> nth k (merged inter setl n) [] <> [] -> forall a, root_of (nth k (merged inter setl n) []) a -> a = k).
    { intros k K N a [A B]. assert (a <= k)%nat by (apply B, (i_root _ _ merged_inv); assumption).
      apply (i_conn _ _ merged_inv) in A. lia. }
    pose proof (i_len _ _ merged_inv) as Hlen. unfold parts. revert H Hlen. generalize (merged inter setl n) as L. generalize n as m.
    intros m L H Hl. rewrite <- Hl in H. clear Hl m.
    assert (G : forall b, (forall k, (k < List.length L)%nat -> nth k L [] <> [] -> forall a, root_of (nth k L []) a -> a = (b + k)%nat) ->
      ForallOrdPairs (fun p q => forall a b, root_of p a -> root_of q b -> (a < b)%nat) (filter (fun l => match l with [] => false | _ => true end) L)).
    { clear H. induction L as [|l L IH]; intros b H; [constructor|].
      assert (T : forall k, (k < List.length L)%nat -> nth k L [] <> [] -> forall a, root_of (nth k L []) a -> a = (S b + k)%nat).
      { intros k K N a A. assert (a = (b + S k)%nat) by (apply (H (S k)); [cbn; lia|exact N|exact A]). lia. }
      cbn [filter]. destruct l as [|c l]; [apply (IH (S b) T)|]. constructor; [|apply (IH (S b) T)].
      apply Forall_forall. intros q Q x y X Y. apply filter_In in Q as [Q Qn].
      destruct (In_nth _ _ [] Q) as (k & K & E). subst q.
      assert (x = (b + 0)%nat) by (apply (H 0%nat); [cbn; lia|discriminate|exact X]).
      assert (y = (S b + k)%nat) by (apply (T k K); [intros E; rewrite E in Qn; discriminate|exact Y]). lia. }
    apply (G 0%nat). exact H.
  Qed.
End Merge.

(** *** names *)
Fixpoint no_us (s : string) : Prop :=
  match s with EmptyString => True | String c r => c <> "_"%char /\ no_us r end.
Lemma no_us_uint u : no_us (NilEmpty.string_of_uint u).
Proof. induction u; cbn; auto; (split; [discriminate|assumption]). Qed.
Lemma no_us_nz u : no_us (NilZero.string_of_uint u).
Proof. destruct u; cbn; try (split; [discriminate|apply no_us_uint]). split; [discriminate|exact I]. Qed.
Lemma no_us_id i : no_us (str_id i).
Proof.
  destruct i as [z|]; cbn [str_id]; [|cbn; repeat split; discriminate].
  unfold NilZero.string_of_int. destruct (Z.to_int z); [apply no_us_nz|]. cbn. split; [discriminate|apply no_us_nz].
Qed.
Lemma str_id_nonempty i : str_id i <> EmptyString.
Proof.
  destruct i as [z|]; cbn [str_id]; [|discriminate]. unfold NilZero.string_of_int. destruct (Z.to_int z) as [u|u]; [|discriminate].
  destruct u; cbn; discriminate.
Qed.
Lemma to_int_not_nil z : Z.to_int z <> Decimal.Pos Decimal.Nil /\ Z.to_int z <> Decimal.Neg Decimal.Nil.
Proof.
  assert (P : forall p, Pos.to_uint p <> Decimal.Nil). { intros p E. pose proof (DecimalPos.Unsigned.of_to p) as Q. rewrite E in Q. discriminate Q. }
  split; destruct z; cbn; try discriminate; intros E; injection E as E; apply (P _ E).
Qed.
Lemma dec_inj z1 z2 : NilZero.string_of_int (Z.to_int z1) = NilZero.string_of_int (Z.to_int z2) -> z1 = z2.
Proof.
  intros H. rewrite <- (DecimalZ.of_to z1), <- (DecimalZ.of_to z2). f_equal.
  assert (Q : Some (Z.to_int z1) = Some (Z.to_int z2)).
  { rewrite <- !NilZero.isi by apply to_int_not_nil. rewrite H. reflexivity. }
  injection Q as Q. exact Q.
Qed.
Lemma dec_not_none z : NilZero.string_of_int (Z.to_int z) <> "None"%string.
Proof.
  intros H. assert (Q : NilZero.int_of_string (NilZero.string_of_int (Z.to_int z)) = NilZero.int_of_string "None"%string) by (rewrite H; reflexivity).
  rewrite NilZero.isi in Q by apply to_int_not_nil. cbn in Q. discriminate Q.
Qed.
Lemma str_id_inj a b : str_id a = str_id b -> a = b.
Proof.
  destruct a, b; cbn [str_id]; intros H; auto.
  - f_equal. apply dec_inj, H.
  - exfalso. eapply dec_not_none, H.
  - exfalso. eapply dec_not_none. symmetry. exact H.
Qed.
Lemma cut_us : forall s1 s2 r1 r2, no_us s1 -> no_us s2 -> (s1 ++ String "_" r1 = s2 ++ String "_" r2)%string -> s1 = s2 /\ r1 = r2.
Proof.
  induction s1 as [|c s1 IH]; intros [|d s2] r1 r2; cbn [no_us append]; intros N1 N2 E; injection E; intros; subst; auto; try tauto.
  destruct (IH s2 r1 r2) as [-> ->]; tauto.
Qed.
Lemma uncut_us : forall s1 s2 r1, no_us s2 -> (s1 ++ String "_" r1 = s2)%string -> False.
Proof. induction s1 as [|c s1 IH]; intros [|d s2] r1; cbn [no_us append]; intros N E; try discriminate; injection E; intros; subst; [tauto|]. eapply IH; [apply N|reflexivity]. Qed.
Lemma name_inj : forall a b, name_of a = name_of b -> a = b.
Proof.
  unfold name_of. induction a as [|i a IH]; intros [|j b]; cbn [map String.concat]; intros H.
  - reflexivity.
  - exfalso. destruct b as [|k b]; cbn [map] in H.
    + symmetry in H. apply (str_id_nonempty _ H).
    + destruct (str_id j) eqn:E; [apply (str_id_nonempty _ E)|discriminate H].
  - exfalso. destruct a as [|k a]; cbn [map] in H.
    + apply (str_id_nonempty _ H).
    + destruct (str_id i) eqn:E; [apply (str_id_nonempty _ E)|discriminate H].
  - destruct a as [|i' a], b as [|j' b]; cbn [map] in H.
    + apply str_id_inj in H as ->. reflexivity.
    + exfalso. symmetry in H. eapply uncut_us; [|exact H]. apply no_us_id.
    + exfalso. eapply uncut_us; [|exact H]. apply no_us_id.
    + apply cut_us in H as [A B]; [|apply no_us_id|apply no_us_id]. apply str_id_inj in A as ->. f_equal.
      apply (IH (j' :: b)). exact B.
Qed.
