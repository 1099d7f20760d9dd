(** Lemmas about polygon_kernel_starshaped_hull: Python indexing, what the loops keep. *)
From Coq Require Import QArith Reals Lra Psatz List Bool Arith ZArith Lia.
From Verif Require Import Num Spec M_Cg M_Motion M_Obstacle M_PolHull L_Geom.
Import ListNotations.
Open Scope R_scope.

(** *** Python indexing *)
Lemma py_index_lt n i j : py_index n i = Some j -> (j < n)%nat.
Proof.
  unfold py_index. destruct (Z.leb_spec 0 i).
  - destruct (Z.ltb_spec i (Z.of_nat n)); [|discriminate]. intros E; injection E as <-. lia.
  - destruct (Z.leb_spec (- Z.of_nat n) i); [|discriminate]. intros E; injection E as <-. lia.
Qed.
Lemma py_index_nat n j : (j < n)%nat -> py_index n (Z.of_nat j) = Some j.
Proof.
  intros H. unfold py_index. destruct (Z.leb_spec 0 (Z.of_nat j)); [|lia].
  destruct (Z.ltb_spec (Z.of_nat j) (Z.of_nat n)); [|lia]. f_equal. lia.
Qed.
Lemma py_index_neg n j : (0 < j <= n)%nat -> py_index n (- Z.of_nat j) = Some (n - j)%nat.
Proof.
  intros H. unfold py_index. destruct (Z.leb_spec 0 (- Z.of_nat j)); [lia|].
  destruct (Z.leb_spec (- Z.of_nat n) (- Z.of_nat j)); [|lia]. f_equal. lia.
Qed.
Lemma py_get_in {A} (l : list A) i a : py_get l i = Ret a -> In a l.
Proof.
  unfold py_get. destruct (py_index _ i); [|discriminate]. destruct (nth_error l n) eqn:E; [|discriminate].
  intros H; injection H as <-. eapply nth_error_In; eauto.
Qed.
Lemma py_get_nth {A} (l : list A) i a : py_get l i = Ret a -> exists j, py_index (length l) i = Some j /\ nth_error l j = Some a.
Proof.
  unfold py_get. destruct (py_index _ i) as [j|]; [|discriminate]. destruct (nth_error l j) eqn:E; [|discriminate].
  intros H; injection H as <-. eauto.
Qed.
Lemma py_get_ok {A} (l : list A) i j : py_index (length l) i = Some j -> exists a, py_get l i = Ret a /\ nth_error l j = Some a.
Proof.
  intros H. unfold py_get. rewrite H. apply py_index_lt in H. destruct (nth_error l j) eqn:E; eauto.
  apply nth_error_None in E. lia.
Qed.
Lemma py_set_in {A} (l : list A) i a l' : py_set l i a = Ret l' -> forall x, In x l' -> x = a \/ In x l.
Proof.
  unfold py_set. destruct (py_index _ i) as [j|]; [|discriminate]. intros H; injection H as <-. intros x Hx.
  apply in_app_or in Hx as [Hx|[<-|Hx]]; auto; right.
  - rewrite <- (firstn_skipn j l). apply in_or_app; auto.
  - rewrite <- (firstn_skipn (S j) l). apply in_or_app; auto.
Qed.

Lemma set_nth {A} (l : list A) j a : (j < length l)%nat -> nth_error (firstn j l ++ a :: skipn (S j) l) j = Some a.
Proof.
  intros H. rewrite nth_error_app2; rewrite firstn_length_le; try lia. rewrite Nat.sub_diag. reflexivity.
Qed.
Lemma set_nth_other {A} (l : list A) j a i : (j < length l)%nat -> i <> j -> nth_error (firstn j l ++ a :: skipn (S j) l) i = nth_error l i.
Proof.
  intros H Hi. rewrite <- (firstn_skipn (S j) l) at 3.
  assert (L : length (firstn (S j) l) = S j) by (apply firstn_length_le; lia).
  assert (L2 : length (firstn j l) = j) by (apply firstn_length_le; lia).
  destruct (Nat.lt_ge_cases i j) as [C|C].
  - rewrite nth_error_app1 by lia. rewrite nth_error_app1 by lia.
    rewrite <- (firstn_skipn j (firstn (S j) l)). rewrite firstn_firstn, Nat.min_l by lia.
    rewrite nth_error_app1 by lia. reflexivity.
  - rewrite nth_error_app2 by lia. rewrite (nth_error_app2 (firstn (S j) l)) by lia. rewrite L, L2.
    replace (i - j)%nat with (S (i - S j))%nat by lia. reflexivity.
Qed.
Lemma set_length {A} (l : list A) j a : (j < length l)%nat -> length (firstn j l ++ a :: skipn (S j) l) = length l.
Proof. intros H. rewrite app_length. cbn [length]. rewrite skipn_length, firstn_length_le; lia. Qed.
Lemma py_set_ret {A} (l : list A) i a l' : py_set l i a = Ret l' ->
  exists j, py_index (length l) i = Some j /\ l' = firstn j l ++ a :: skipn (S j) l.
Proof. unfold py_set. destruct (py_index _ i) as [j|]; [|discriminate]. intros H; injection H as <-. eauto. Qed.
Lemma py_set_length {A} (l : list A) i a l' : py_set l i a = Ret l' -> length l' = length l.
Proof. intros H. apply py_set_ret in H as (j & Hj & ->). apply set_length. eapply py_index_lt; eauto. Qed.
Lemma py_last {A} (l : list A) a : py_get (l ++ [a]) (-1) = Ret a.
Proof.
  unfold py_get. rewrite app_length. cbn [length]. change (-1)%Z with (- Z.of_nat 1)%Z. rewrite py_index_neg by lia.
  replace (length l + 1 - 1)%nat with (length l) by lia. rewrite nth_error_app2, Nat.sub_diag by lia. reflexivity.
Qed.

Lemma exists_last_or_nil {A} (l : list A) : l = [] \/ exists a b, l = a ++ [b].
Proof. destruct l as [|x l]; [auto|]. right. destruct (@exists_last _ (x :: l)) as (a & b & E); [discriminate|eauto]. Qed.

(** bind *)
Lemma bind_ret {A B} (r : res A) (f : A -> res B) b : bind r f = Ret b -> exists a, r = Ret a /\ f a = Ret b.
Proof. destruct r; cbn; [eauto|discriminate]. Qed.
Lemma bind_exn {A B} (r : res A) (f : A -> res B) e : bind r f = Exn e -> r = Exn e \/ exists a, r = Ret a /\ f a = Exn e.
Proof. destruct r; cbn; [eauto|]. intros H. left. congruence. Qed.
Ltac binv H := apply bind_ret in H as (?x & ?E & H); cbv beta in H.

(** *** augment *)
Lemma augment_plain {T} {N : Num T} (sv : list (pt T)) u v vp : is_ccw u v vp = false ->
  augment sv u v vp = Ret (sv ++ [u], Z.of_nat (length sv), (Z.of_nat (length sv) - 1)%Z).
Proof.
  intros H. unfold augment. rewrite H, app_length. cbn [length].
  replace (Z.of_nat (length sv + 1) - 1)%Z with (Z.of_nat (length sv)) by lia.
  replace (Z.of_nat (length sv + 1) - 2)%Z with (Z.of_nat (length sv) - 1)%Z by lia. reflexivity.
Qed.
Lemma augment_swap {T} {N : Num T} (sv : list (pt T)) w u v vp : is_ccw u v vp = true ->
  augment (sv ++ [w]) u v vp = Ret (sv ++ [u; w], Z.of_nat (length sv), (Z.of_nat (length sv) + 1)%Z).
Proof.
  intros H. unfold augment. rewrite H. rewrite <- app_assoc. cbn [app].
  assert (L : length (sv ++ [w; u]) = (length sv + 2)%nat) by (rewrite app_length; reflexivity).
  replace (py_get (sv ++ [w; u]) (-1)) with (Ret u).
  2:{ symmetry. change [w; u] with ([w] ++ [u]). rewrite app_assoc. apply py_last. }
  cbn [bind].
  replace (py_get (sv ++ [w; u]) (-2)) with (Ret w).
  2:{ symmetry. unfold py_get. change (-2)%Z with (- Z.of_nat 2)%Z. rewrite L, py_index_neg by lia.
      replace (length sv + 2 - 2)%nat with (length sv) by lia. rewrite nth_error_app2, Nat.sub_diag by lia. reflexivity. }
  cbn [bind].
  assert (S2 : py_set (sv ++ [w; u]) (-2) u = Ret (sv ++ [u; u])).
  { unfold py_set. change (-2)%Z with (- Z.of_nat 2)%Z. rewrite L, py_index_neg by lia.
    replace (length sv + 2 - 2)%nat with (length sv) by lia. rewrite firstn_app, Nat.sub_diag, firstn_all. cbn [firstn].
    rewrite app_nil_r. rewrite skipn_app. rewrite skipn_all2 by lia. replace (S (length sv) - length sv)%nat with 1%nat by lia. reflexivity. }
  rewrite S2. cbn [bind].
  assert (S3 : py_set (sv ++ [u; u]) (-1) w = Ret (sv ++ [u; w])).
  { unfold py_set. change (-1)%Z with (- Z.of_nat 1)%Z. rewrite app_length. cbn [length]. rewrite py_index_neg by lia.
    replace (length sv + 2 - 1)%nat with (S (length sv)) by lia.
    change [u; u] with ([u] ++ [u]). rewrite app_assoc. rewrite firstn_app. rewrite firstn_all2 by (rewrite app_length; cbn; lia).
    rewrite app_length. cbn [length]. replace (S (length sv) - (length sv + 1))%nat with 0%nat by lia. cbn [firstn]. rewrite app_nil_r.
    rewrite skipn_all2 by (rewrite !app_length; cbn; lia). rewrite <- app_assoc. reflexivity. }
  rewrite S3. cbn [bind]. rewrite L. do 2 f_equal; [f_equal|]; lia.
Qed.
Lemma augment_swap_nil {T} {N : Num T} (u v vp : pt T) : is_ccw u v vp = true -> augment [] u v vp = Exn IndexErr.
Proof. intros H. unfold augment. rewrite H. reflexivity. Qed.
(** both cases: the new point goes to the end or to the place before the last, and e1 points at it *)
Lemma augment_ret {T} {N : Num T} (sv : list (pt T)) u v vp sv' e1 e2 : augment sv u v vp = Ret (sv', e1, e2) ->
  exists a b, sv = a ++ b /\ (length b <= 1)%nat /\ sv' = a ++ u :: b /\ e1 = Z.of_nat (length a) /\ e1 <> e2.
Proof.
  destruct (is_ccw u v vp) eqn:C.
  - destruct (exists_last_or_nil sv) as [->|(l & w & ->)].
    + rewrite augment_swap_nil by auto. discriminate.
    + rewrite augment_swap by auto. intros H; injection H as <- <- <-. exists l, [w]. repeat split; auto. lia.
  - rewrite augment_plain by auto. intros H; injection H as <- <- <-. exists sv, []. rewrite app_nil_r. repeat split; auto; try (cbn; lia).
Qed.
Lemma augment_exn {T} {N : Num T} (sv : list (pt T)) u v vp e : augment sv u v vp = Exn e -> e = IndexErr /\ sv = [].
Proof.
  destruct (is_ccw u v vp) eqn:C.
  - destruct (exists_last_or_nil sv) as [->|(l & w & ->)].
    + rewrite augment_swap_nil by auto. intros H; injection H as <-. auto.
    + rewrite augment_swap by auto. discriminate.
  - rewrite augment_plain by auto. discriminate.
Qed.

(** *** What the loops keep *)
Section Keep.
  Variable W : pol_world R.
  Variable K : list (pt R).

  (** a property of points that the candidates have *)
  Variable good : pt R -> Prop.
  Variable good_v : pt R -> Prop.
  Hypothesis G_v : forall v, good_v v -> good v.
  Hypothesis G_k : forall k v, In k K -> good_v v -> good k.
  Hypothesis G_cross : forall k v s c, In k K -> good_v v -> pw_cross W (line_seg k v) s = XPoint c -> good c.
  Hypothesis G_shift : forall k v u u' s, In k K -> good_v v -> In u (intersection_points (pw_meet W (line_seg k v))) ->
    pw_cross W s (line_seg u v) = XPoint u' -> good u'.
  Hypothesis G_meet : forall k v u, In k K -> good_v v -> In u (intersection_points (pw_meet W (line_seg k v))) -> good u.

  Lemma adjust_good v e2 s e1_idx ks : good_v v -> incl ks K -> forall sv adj sv' adj',
    adjust_loop W v e2 s e1_idx ks sv adj = Ret (sv', adj') -> Forall good sv -> Forall good sv'.
  Proof.
    intros Gv. induction ks as [|k ks IH]; intros I sv adj sv' adj' H F; cbn [adjust_loop] in H.
    - injection H as <- <-. auto.
    - assert (Ik : In k K) by (apply I; simpl; auto). assert (I' : incl ks K) by (intros x Hx; apply I; simpl; auto).
      destruct (pw_cross W (line_seg k v) s) eqn:E; try discriminate.
      + eapply IH; eauto.
      + binv H. destruct (nltb _ _).
        * binv H. eapply IH; eauto. apply Forall_forall. intros q Hq. rewrite Forall_forall in F.
          apply (py_set_in _ _ _ _ E1) in Hq as [->|Hq]; auto. eapply G_cross; eauto.
        * eapply IH; eauto.
  Qed.
  Lemma shift_good v k w vb ks u : good_v v -> In k K -> In w (intersection_points (pw_meet W (line_seg k v))) ->
    good u -> forall u', shift_u W vb (line_seg w v) ks u = Ret u' -> good u'.
  Proof.
    intros Gv Ik Iw. revert u. induction ks as [|kp ks IH]; intros u Gu u' H; cbn [shift_u] in H.
    - injection H as <-. auto.
    - destruct (pw_cross W (line_seg kp vb) (line_seg w v)) eqn:E; try discriminate; eapply IH; try apply H; auto.
      eapply G_shift; eauto.
  Qed.
  Lemma augment_good sv u v vp sv' e1 e2 : augment sv u v vp = Ret (sv', e1, e2) -> Forall good sv -> good u -> Forall good sv'.
  Proof.
    intros H F G. apply augment_ret in H as (a & b & -> & _ & -> & _). apply Forall_app in F as [Fa Fb].
    apply Forall_app. split; auto.
  Qed.
  Lemma augment_loop_good v vp vb ks : good_v v -> incl ks K -> forall i s s',
    augment_loop W K v vp vb i ks s = Ret s' -> Forall good (a_sv s) -> Forall good (a_sv s').
  Proof.
    intros Gv. induction ks as [|k ks IH]; intros I i s s' H F; cbn [augment_loop] in H.
    - injection H as <-. auto.
    - assert (Ik : In k K) by (apply I; simpl; auto). assert (I' : incl ks K) by (intros x Hx; apply I; simpl; auto).
      destruct (pw_meet W (line_seg k v)) eqn:E.
      1: { destruct (_ && _); [|eapply IH; eauto]. binv H. destruct x as [[sv e1] e2].
           eapply IH; eauto. cbn [a_sv]. eapply augment_good; eauto. }
      all: destruct (find _ _) as [u|] eqn:Fd; [|eapply IH; eauto];
        apply find_some in Fd as [Iu _]; destruct (forallb _ _); [|eapply IH; eauto];
        binv H; binv H; destruct x0 as [[sv e1] e2]; eapply IH; eauto; cbn [a_sv];
        (eapply augment_good; [eassumption|assumption|]); (eapply shift_good; [exact Gv|exact Ik| |eapply G_meet; [exact Ik|exact Gv|]|eassumption]; rewrite E in *; exact Iu).
  Qed.
  Lemma vertex_step_good v vp s vb s' vb' : good_v v -> vertex_step W K v vp (s, vb) = Ret (s', vb') ->
    Forall good (a_sv s) -> Forall good (a_sv s').
  Proof.
    intros Gv H F. unfold vertex_step in H. destruct (visible W K v); [|injection H as <- <-; auto].
    cbv zeta in H. remember (add_vertex W K v (a_sv s)) as sv1 eqn:Es.
    assert (F1 : Forall good sv1).
    { subst sv1. unfold add_vertex. destruct (_ || _); auto. apply Forall_app. split; auto. }
    binv H. destruct x as [sv2 adj].
    assert (F2 : Forall good sv2).
    { clear Es. destruct sv1 as [|p l]; [injection E as <- <-; auto|]. binv E. binv E.
      eapply adjust_good; eauto. apply incl_refl. }
    binv H. binv H. injection H as <- <-. destruct adj.
    - injection E0 as <-. auto.
    - eapply augment_loop_good; eauto. apply incl_refl.
  Qed.
  Lemma vertex_loop_good vs : forall vp st st', Forall good_v vs -> vertex_loop W K vp vs st = Ret st' ->
    Forall good (a_sv (fst st)) -> Forall good (a_sv (fst st')).
  Proof.
    induction vs as [|v vs IH]; intros vp [s vb] st' Fv H F; cbn [vertex_loop] in H.
    - injection H as <-. auto.
    - inversion Fv; subst. binv H. destruct x as [s1 vb1]. eapply IH in H; eauto. cbn [fst] in *.
      eapply vertex_step_good; eauto.
  Qed.
End Keep.

Lemma insert_in {A} (l : list A) j a x : In x (firstn j l ++ a :: skipn j l) <-> x = a \/ In x l.
Proof.
  rewrite in_app_iff. cbn [In]. rewrite <- (firstn_skipn j l) at 3. rewrite in_app_iff. intuition.
Qed.
Lemma insert_kernel_in (K0 : list (pt R)) j v vp ks : forall i sv inc sv' inc', insert_kernel j v vp i ks sv inc = (sv', inc') ->
  (forall x, In x sv' -> In x sv \/ In x ks) /\ (forall x, In x sv -> In x sv').
Proof.
  induction ks as [|k ks IH]; intros i sv inc sv' inc' H; cbn [insert_kernel] in H.
  - injection H as <- <-. auto.
  - destruct (_ && _).
    + apply IH in H as [H1 H2]. split.
      * intros x Hx. apply H1 in Hx as [Hx|Hx]; [|simpl; auto]. apply insert_in in Hx as [->|Hx]; simpl; auto.
      * intros x Hx. apply H2, insert_in. auto.
    + apply IH in H as [H1 H2]. split; auto. intros x Hx. apply H1 in Hx as [Hx|Hx]; simpl; auto.
Qed.
Lemma final_loop_in (K : list (pt R)) c : forall j sv inc sv', final_loop K c j sv inc = Ret sv' ->
  (forall x, In x sv' -> In x sv \/ In x K) /\ (forall x, In x sv -> In x sv').
Proof.
  induction c as [|c IH]; intros j sv inc sv' H; cbn [final_loop] in H.
  - injection H as <-. auto.
  - binv H. binv H. destruct (insert_kernel _ _ _ _ _ _ _) as [sv1 inc1] eqn:E1.
    apply (insert_kernel_in K) in E1 as [A1 A2]. apply IH in H as [B1 B2]. split; auto.
    intros y Hy. apply B1 in Hy as [Hy|Hy]; auto.
Qed.
Lemma insert_kernel_length j (v vp : pt R) ks : forall i sv inc sv' inc', insert_kernel j v vp i ks sv inc = (sv', inc') ->
  (length sv <= length sv')%nat.
Proof.
  induction ks as [|k ks IH]; intros i sv inc sv' inc' H; cbn [insert_kernel] in H.
  - injection H as <- <-. auto.
  - destruct (_ && _); apply IH in H; auto. rewrite app_length in H. cbn [length] in H.
    pose proof (firstn_skipn j sv) as E. apply (f_equal (@length _)) in E. rewrite app_length in E. lia.
Qed.
(** the final loop never fails *)
Lemma final_loop_total (K : list (pt R)) c : forall j sv inc, (j + c <= length sv)%nat -> exists sv', final_loop K c j sv inc = Ret sv'.
Proof.
  induction c as [|c IH]; intros j sv inc L; cbn [final_loop]; [eauto|].
  assert (G1 : exists a, py_get sv (Z.of_nat j - 1) = Ret a).
  { destruct j as [|j].
    - change (Z.of_nat 0 - 1)%Z with (- Z.of_nat 1)%Z. destruct (py_get_ok sv (- Z.of_nat 1) (length sv - 1)) as (a & Ha & _); eauto.
      apply py_index_neg. lia.
    - replace (Z.of_nat (S j) - 1)%Z with (Z.of_nat j) by lia. destruct (py_get_ok sv (Z.of_nat j) j) as (a & Ha & _); eauto.
      apply py_index_nat. lia. }
  destruct G1 as [a ->]. cbn [bind].
  destruct (py_get_ok sv (Z.of_nat j) j) as (b & -> & _); [apply py_index_nat; lia|]. cbn [bind].
  destruct (insert_kernel _ _ _ _ _ _ _) as [sv1 inc1] eqn:E. apply insert_kernel_length in E. apply IH. lia.
Qed.

(** *** arrange *)
Lemma roll_in (vs : list (pt R)) x : In x (roll_to_max vs) <-> In x vs.
Proof.
  destruct vs as [|p r]; [reflexivity|]. unfold roll_to_max. cbv zeta. set (n := argmax_x _ _ _ _). clearbody n.
  rewrite in_app_iff. rewrite <- (firstn_skipn n (p :: r)) at 3. rewrite in_app_iff. tauto.
Qed.
Lemma roll_length (vs : list (pt R)) : length (roll_to_max vs) = length vs.
Proof.
  destruct vs as [|p r]; [reflexivity|]. unfold roll_to_max. cbv zeta. set (n := argmax_x _ _ _ _). clearbody n.
  rewrite app_length, skipn_length, firstn_length. unfold pt in *. lia.
Qed.
Lemma last_cons {A} (l : list A) a d : last (a :: l) d = last l a.
Proof. revert a d. induction l as [|b l IH]; intros; [reflexivity|]. change (last (a :: b :: l) d) with (last (b :: l) d). rewrite !IH. reflexivity. Qed.
Lemma flip_roll_cons (a : pt R) l : flip_roll (a :: l) = a :: rev l.
Proof.
  unfold flip_roll. cbn [rev]. destruct (rev l ++ [a]) as [|b t] eqn:E; [destruct (rev l); discriminate|].
  rewrite <- (last_cons t b b), <- E. rewrite last_last, removelast_last. reflexivity.
Qed.
Lemma flip_roll_in (vs : list (pt R)) x : In x (flip_roll vs) <-> In x vs.
Proof. destruct vs as [|a l]; [reflexivity|]. rewrite flip_roll_cons. cbn [In]. rewrite <- in_rev. tauto. Qed.
Lemma arrange_in (vs l : list (pt R)) : arrange vs = Ret l -> forall x, In x l <-> In x vs.
Proof.
  unfold arrange. cbv zeta. intros H. binv H. binv H. binv H. destruct (is_cw x x0 x1); injection H as <-; intros y.
  - rewrite flip_roll_in. apply roll_in.
  - apply roll_in.
Qed.
Lemma arrange_total (vs : list (pt R)) : (2 <= length vs)%nat -> exists l, arrange vs = Ret l /\ length l = length vs.
Proof.
  intros L. unfold arrange. cbv zeta. pose proof (roll_length vs) as Lw. remember (roll_to_max vs) as ws eqn:Ew. clear Ew.
  destruct (py_get_ok ws (- Z.of_nat 1) (length ws - 1)) as (a & Ha & _); [apply py_index_neg; lia|].
  change (- Z.of_nat 1)%Z with (-1)%Z in Ha.
  destruct (py_get_ok ws (Z.of_nat 0) 0) as (b & Hb & _); [apply py_index_nat; lia|].
  destruct (py_get_ok ws (Z.of_nat 1) 1) as (c & Hc & _); [apply py_index_nat; lia|].
  change (Z.of_nat 0) with 0%Z in Hb. change (Z.of_nat 1) with 1%Z in Hc.
  rewrite Ha. cbn [bind]. rewrite Hb. cbn [bind]. rewrite Hc. cbn [bind]. destruct (is_cw a b c); [|eauto].
  eexists. split; [reflexivity|]. destruct ws as [|q t]; [auto|]. rewrite flip_roll_cons. cbn [length]. rewrite rev_length. auto.
Qed.

(** *** Vertices once added stay: only the last augmented point is ever replaced *)
Definition placed (e1 e2 : Z) (sv : list (pt R)) (d : pt R) : Prop :=
  exists i, nth_error sv i = Some d /\ (Z.of_nat i <> e1 \/ (e1 = 0 /\ e2 = 0)%Z).
Definition edge_ok (e1 e2 : Z) (sv : list (pt R)) : Prop :=
  (e1 = 0 /\ e2 = 0)%Z \/ (0 <= e1 < Z.of_nat (length sv))%Z.

Lemma norm2_diff_0 (a : pt R) : norm2_diff a a = 0.
Proof. unfold norm2_diff, nsq. nR. ring. Qed.
Lemma norm2_diff_nonneg (a b : pt R) : 0 <= norm2_diff a b.
Proof. unfold norm2_diff, nsq. nR. apply Rplus_le_le_0_compat; apply Rle_0_sqr. Qed.

Section Stay.
  Variable W : pol_world R.
  Variable K : list (pt R).

  Lemma adjust_stage0 v e2 s ks : forall sv adj sv' adj', py_get sv 0 = Ret e2 ->
    adjust_loop W v e2 s 0 ks sv adj = Ret (sv', adj') -> sv' = sv.
  Proof.
    induction ks as [|k ks IH]; intros sv adj sv' adj' H0 H; cbn [adjust_loop] in H.
    - congruence.
    - destruct (pw_cross W (line_seg k v) s); try discriminate; [eauto|].
      rewrite H0 in H. cbn [bind] in H. rewrite norm2_diff_0 in H.
      assert (Hn : nltb (norm2_diff e2 p) 0 = false) by (apply Rltb_false; apply norm2_diff_nonneg).
      rewrite Hn in H. eauto.
  Qed.
  Lemma adjust_stay v e2 s j ks : forall sv adj sv' adj',
    adjust_loop W v e2 s (Z.of_nat j) ks sv adj = Ret (sv', adj') ->
    length sv' = length sv /\ forall i, i <> j -> nth_error sv' i = nth_error sv i.
  Proof.
    induction ks as [|k ks IH]; intros sv adj sv' adj' H; cbn [adjust_loop] in H.
    - injection H as <- <-. auto.
    - destruct (pw_cross W (line_seg k v) s); try discriminate; [eauto|].
      binv H. destruct (nltb _ _); [|eauto]. binv H. apply IH in H as [L H]. split.
      + rewrite L. eapply py_set_length; eauto.
      + intros i Hi. rewrite H by auto. apply py_set_ret in E0 as (m & Hm & ->).
        assert (Lt := py_index_lt _ _ _ Hm). assert (m = j).
        { unfold py_index in Hm. destruct (Z.leb_spec 0 (Z.of_nat j)); [|lia]. destruct (Z.ltb_spec (Z.of_nat j) (Z.of_nat (length sv))); [|discriminate].
          injection Hm as <-. lia. }
        subst m. apply set_nth_other; auto.
  Qed.
  Lemma augment_stay sv u v vp sv' e1 e2 ds e1' e2' : augment sv u v vp = Ret (sv', e1', e2') ->
    Forall (placed e1 e2 sv) ds -> edge_ok e1' e2' sv' /\ Forall (placed e1' e2' sv') ds.
  Proof.
    intros H F. apply augment_ret in H as (a & b & -> & _ & -> & -> & Ne). split.
    - right. rewrite app_length. cbn [length]. lia.
    - eapply Forall_impl; [|exact F]. intros d (i & Hi & _). destruct (Nat.lt_ge_cases i (length a)) as [C|C].
      + exists i. rewrite nth_error_app1 in * by auto. split; auto. left. lia.
      + exists (S i). rewrite nth_error_app2 in Hi by auto. rewrite nth_error_app2 by lia.
        replace (S i - length a)%nat with (S (i - length a))%nat by lia. split; auto. left. lia.
  Qed.
  Lemma augment_loop_stay v vp vb ds ks : forall i s s', augment_loop W K v vp vb i ks s = Ret s' ->
    edge_ok (a_e1 s) (a_e2 s) (a_sv s) -> Forall (placed (a_e1 s) (a_e2 s) (a_sv s)) ds ->
    edge_ok (a_e1 s') (a_e2 s') (a_sv s') /\ Forall (placed (a_e1 s') (a_e2 s') (a_sv s')) ds.
  Proof.
    induction ks as [|k ks IH]; intros i s s' H O F; cbn [augment_loop] in H.
    - injection H as <-. auto.
    - destruct (pw_meet W (line_seg k v)) eqn:E.
      1: { destruct (_ && _); [|eapply IH; eauto]. binv H. destruct x as [[sv e1] e2].
           destruct (augment_stay _ _ _ _ _ _ _ _ _ _ E0 F). eapply IH; eauto. }
      all: destruct (find _ _) as [u|] eqn:Fd; [|eapply IH; eauto]; destruct (forallb _ _); [|eapply IH; eauto];
        binv H; binv H; destruct x0 as [[sv e1] e2]; destruct (augment_stay _ _ _ _ _ _ _ _ _ _ E1 F); eapply IH; eauto.
  Qed.
  Lemma placed_app e1 e2 sv l d : placed e1 e2 sv d -> placed e1 e2 (sv ++ l) d.
  Proof.
    intros (i & H & P). exists i. split; auto. rewrite nth_error_app1; auto. apply nth_error_Some. congruence.
  Qed.
  Definition kept (v : pt R) : bool := visible W K v && ((length K <? 3)%nat || negb (pw_in_kernel W v)).
  Lemma vertex_step_stay v vp s vb s' vb' ds : vertex_step W K v vp (s, vb) = Ret (s', vb') ->
    edge_ok (a_e1 s) (a_e2 s) (a_sv s) -> Forall (placed (a_e1 s) (a_e2 s) (a_sv s)) ds ->
    edge_ok (a_e1 s') (a_e2 s') (a_sv s') /\ Forall (placed (a_e1 s') (a_e2 s') (a_sv s')) ds /\
    (kept v = true -> placed (a_e1 s') (a_e2 s') (a_sv s') v).
  Proof.
    intros H O F. unfold vertex_step in H. unfold kept. destruct (visible W K v); [|injection H as <- <-; repeat split; auto; discriminate].
    cbv zeta in H. remember (add_vertex W K v (a_sv s)) as sv1 eqn:Es.
    set (ds' := if ((length K <? 3)%nat || negb (pw_in_kernel W v))%bool then v :: ds else ds).
    assert (O1 : edge_ok (a_e1 s) (a_e2 s) sv1).
    { subst sv1. unfold add_vertex. destruct (_ || _); auto. destruct O as [O|O]; [left; auto|right]. rewrite app_length. cbn [length]. lia. }
    assert (F1 : Forall (placed (a_e1 s) (a_e2 s) sv1) ds').
    { subst sv1. unfold add_vertex, ds'. destruct (_ || _); auto. constructor.
      - exists (length (a_sv s)). rewrite nth_error_app2, Nat.sub_diag by lia. split; auto. destruct O as [O|O]; [right; auto|left; lia].
      - eapply Forall_impl; [|exact F]. intros d. apply placed_app. }
    clear Es O F. binv H. destruct x as [sv2 adj].
    assert (F2 : edge_ok (a_e1 s) (a_e2 s) sv2 /\ Forall (placed (a_e1 s) (a_e2 s) sv2) ds').
    { destruct sv1 as [|p l]; [injection E as <- <-; auto|]. binv E. binv E. 
      assert (St : (a_e1 s = 0 /\ a_e2 s = 0)%Z \/ ~ (a_e1 s = 0 /\ a_e2 s = 0)%Z) by lia. destruct St as [[O2 O3]|St].
      - rewrite O2 in E. rewrite O3 in E1. apply adjust_stage0 in E; auto. rewrite E. split; auto.
      - destruct O1 as [O1|O1]; [contradiction|]. destruct (Z_of_nat_complete (a_e1 s)) as [j Hj]; [lia|]. rewrite Hj in E. apply adjust_stay in E as [L E]. split.
        + right. rewrite L. auto.
        + eapply Forall_impl; [|exact F1]. intros d (i & Hi & P). destruct P as [P|P]; [|contradiction].
          exists i. split; [|left; auto]. rewrite E; auto. lia. }
    destruct F2 as [O2 F2]. binv H. binv H. injection H as <- <-.
    assert (F3 : edge_ok (a_e1 x) (a_e2 x) (a_sv x) /\ Forall (placed (a_e1 x) (a_e2 x) (a_sv x)) ds').
    { destruct adj.
      - injection E0 as <-. auto.
      - eapply augment_loop_stay; eauto. }
    destruct F3 as [O3 F3]. unfold ds' in F3. destruct (_ || _).
    - inversion F3; subst. auto.
    - repeat split; auto. discriminate.
  Qed.
  Lemma vertex_loop_stay vs : forall vp st st' ds, vertex_loop W K vp vs st = Ret st' ->
    edge_ok (a_e1 (fst st)) (a_e2 (fst st)) (a_sv (fst st)) ->
    Forall (placed (a_e1 (fst st)) (a_e2 (fst st)) (a_sv (fst st))) ds ->
    Forall (placed (a_e1 (fst st')) (a_e2 (fst st')) (a_sv (fst st'))) (ds ++ filter kept vs).
  Proof.
    induction vs as [|v vs IH]; intros vp [s vb] st' ds H O F; cbn [vertex_loop] in H.
    - injection H as <-. cbn [filter]. rewrite app_nil_r. auto.
    - binv H. destruct x as [s1 vb1]. cbn [fst] in *. destruct (vertex_step_stay _ _ _ _ _ _ _ E O F) as (O1 & F1 & V1).
      cbn [filter]. destruct (kept v).
      + change (v :: filter kept vs) with ([v] ++ filter kept vs). rewrite app_assoc. eapply IH; eauto. cbn [fst].
        apply Forall_app. split; auto.
      + eapply IH; eauto.
  Qed.

  (** *** Failures *)
  Lemma adjust_exn v e2 s j ks : forall sv adj e, (j < length sv)%nat ->
    adjust_loop W v e2 s (Z.of_nat j) ks sv adj = Exn e -> e = AttributeErr /\ exists k a b, In k ks /\ pw_cross W (line_seg k v) s = XLine a b.
  Proof.
    induction ks as [|k ks IH]; intros sv adj e L H; cbn [adjust_loop] in H; [discriminate|].
    destruct (pw_cross W (line_seg k v) s) eqn:E.
    - apply IH in H as (-> & k' & a & b & I1 & I2); auto. split; auto. exists k', a, b; simpl; auto.
    - destruct (py_get_ok sv (Z.of_nat j) j) as (c & Hc & _); [apply py_index_nat; auto|]. rewrite Hc in H. cbn [bind] in H.
      assert (Nx : forall sv' adj', length sv' = length sv -> adjust_loop W v e2 s (Z.of_nat j) ks sv' adj' = Exn e ->
        e = AttributeErr /\ exists k0 a b, In k0 (k :: ks) /\ pw_cross W (line_seg k0 v) s = XLine a b).
      { intros sv' adj' L' H'. apply IH in H' as (-> & k' & a & b & I1 & I2); [|lia]. split; auto. exists k', a, b; simpl; auto. }
      destruct (nltb _ _); [|eauto]. destruct (py_set sv (Z.of_nat j) p) as [sv'|e'] eqn:Es; cbn [bind] in H.
      + apply py_set_length in Es. eauto.
      + unfold py_set in Es. rewrite py_index_nat in Es by auto. discriminate.
    - injection H as <-. split; auto. exists k, a, b; simpl; auto.
  Qed.
  Lemma shift_exn vb s ks : forall u e, shift_u W vb s ks u = Exn e -> e = AttributeErr /\ exists k a b, In k ks /\ pw_cross W (line_seg k vb) s = XLine a b.
  Proof.
    induction ks as [|k ks IH]; intros u e H; cbn [shift_u] in H; [discriminate|].
    destruct (pw_cross W (line_seg k vb) s) eqn:E; try (apply IH in H as (-> & k' & a & b & I1 & I2); split; auto; exists k', a, b; simpl; auto).
    injection H as <-. split; auto. exists k, a, b; simpl; auto.
  Qed.
End Stay.

Section Fail.
  Variable W : pol_world R.
  Variable K : list (pt R).
  Variable good good_v : pt R -> Prop.
  Hypothesis G_v : forall v, good_v v -> good v.
  Hypothesis G_k : forall k v, In k K -> good_v v -> good k.
  Hypothesis G_cross : forall k v s c, In k K -> good_v v -> pw_cross W (line_seg k v) s = XPoint c -> good c.
  Hypothesis G_shift : forall k v u u' s, In k K -> good_v v -> In u (intersection_points (pw_meet W (line_seg k v))) ->
    pw_cross W s (line_seg u v) = XPoint u' -> good u'.
  Hypothesis G_meet : forall k v u, In k K -> good_v v -> In u (intersection_points (pw_meet W (line_seg k v))) -> good u.

  (** two of the segments the code intersects share more than a point *)
  Definition overlapping : Prop := exists k w a b x y, In k K /\ good w /\ good a /\ good b /\
    pw_cross W (line_seg k w) (line_seg a b) = XLine x y.
  Definition idx_ok (e1 e2 : Z) (sv : list (pt R)) : Prop :=
    (e1 = 0 /\ e2 = 0)%Z \/ (0 <= e1 < Z.of_nat (length sv) /\ -1 <= e2 < Z.of_nat (length sv))%Z.

  Lemma augment_idx sv u v vp sv' e1 e2 : augment sv u v vp = Ret (sv', e1, e2) -> idx_ok e1 e2 sv' /\ sv' <> [].
  Proof.
    destruct (is_ccw u v vp) eqn:C.
    - destruct (exists_last_or_nil sv) as [->|(l & w & ->)].
      + rewrite augment_swap_nil by auto. discriminate.
      + rewrite augment_swap by auto. intros H; injection H as <- <- <-. split; [|destruct l; discriminate].
        right. rewrite app_length. cbn [length]. lia.
    - rewrite augment_plain by auto. intros H; injection H as <- <- <-. split; [|destruct sv; discriminate].
      right. rewrite app_length. cbn [length]. lia.
  Qed.
  Lemma augment_loop_idx v vp vb ks : forall i s s', augment_loop W K v vp vb i ks s = Ret s' ->
    idx_ok (a_e1 s) (a_e2 s) (a_sv s) -> idx_ok (a_e1 s') (a_e2 s') (a_sv s').
  Proof.
    induction ks as [|k ks IH]; intros i s s' H O; cbn [augment_loop] in H.
    - injection H as <-. auto.
    - destruct (pw_meet W (line_seg k v)) eqn:E.
      1: { destruct (_ && _); [|eapply IH; eauto]. binv H. destruct x as [[sv e1] e2].
           destruct (augment_idx _ _ _ _ _ _ _ E0). eapply IH; eauto. }
      all: destruct (find _ _) as [u|] eqn:Fd; [|eapply IH; eauto]; destruct (forallb _ _); [|eapply IH; eauto];
        binv H; binv H; destruct x0 as [[sv e1] e2]; destruct (augment_idx _ _ _ _ _ _ _ E1); eapply IH; eauto.
  Qed.
  Lemma augment_loop_exn v vp vb ks : good_v v -> good vb -> incl ks K -> forall i s e, augment_loop W K v vp vb i ks s = Exn e ->
    (e = IndexErr /\ a_sv s = []) \/ (e = AttributeErr /\ overlapping).
  Proof.
    intros Gv Gb. induction ks as [|k ks IH]; intros I i s e H; cbn [augment_loop] in H; [discriminate|].
    assert (Ik : In k K) by (apply I; simpl; auto). assert (I' : incl ks K) by (intros x Hx; apply I; simpl; auto).
    assert (Aug : forall u f, bind (augment (a_sv s) u v vp) (fun '(sv, e1, e2) => augment_loop W K v vp vb (S i) ks (AS sv e1 e2 (f sv))) = Exn e ->
      (e = IndexErr /\ a_sv s = []) \/ (e = AttributeErr /\ overlapping)).
    { intros u f H'. apply bind_exn in H' as [H'|([[sv e1] e2] & H1 & H2)].
      - apply augment_exn in H'. left. auto.
      - apply IH in H2 as [[_ H2]|H2]; auto. cbn [a_sv] in H2. apply augment_idx in H1 as [_ H1]. contradiction. }
    destruct (pw_meet W (line_seg k v)) eqn:E.
    1: { destruct (_ && _); [|eapply IH; eauto]. apply (Aug k (fun _ => firstn i (a_inc s) ++ true :: skipn (S i) (a_inc s))). exact H. }
    all: destruct (find _ _) as [u|] eqn:Fd; [|eapply IH; eauto]; destruct (forallb _ _); [|eapply IH; eauto];
      (apply bind_exn in H as [H|(u' & H1 & H2)];
       [|apply (Aug u' (fun _ => a_inc s)); exact H2]);
      apply find_some in Fd as [Iu _]; right; apply shift_exn in H as (-> & kp & x & y & Ikp & Ex); split; auto;
      exists kp, vb, u, v, x, y; repeat split; auto;
      try (eapply G_meet; [exact Ik|exact Gv|rewrite E; exact Iu]);
      apply filter_In in Ikp; tauto.
  Qed.
  Lemma vertex_step_exn v vp s vb e : good_v v -> good vb -> Forall good (a_sv s) -> idx_ok (a_e1 s) (a_e2 s) (a_sv s) ->
    vertex_step W K v vp (s, vb) = Exn e ->
    (e = IndexErr /\ a_sv s = [] /\ visible W K v = true /\ kept W K v = false) \/ (e = AttributeErr /\ overlapping).
  Proof.
    intros Gv Gb F O H. unfold vertex_step in H. unfold kept. destruct (visible W K v); [|discriminate].
    cbv zeta in H. remember (add_vertex W K v (a_sv s)) as sv1 eqn:Es.
    assert (F1 : Forall good sv1).
    { subst sv1. unfold add_vertex. destruct (_ || _); auto. apply Forall_app. split; auto. }
    assert (O1 : idx_ok (a_e1 s) (a_e2 s) sv1).
    { subst sv1. unfold add_vertex. destruct (_ || _); auto. destruct O as [O|O]; [left; auto|right]. rewrite app_length. cbn [length]. lia. }
    assert (N1 : sv1 = [] -> a_sv s = [] /\ (true && ((length K <? 3)%nat || negb (pw_in_kernel W v)) = false)%bool).
    { subst sv1. unfold add_vertex. destruct (_ || _); auto. destruct (a_sv s); discriminate. }
    clear Es F O. apply bind_exn in H as [H|([sv2 adj] & H1 & H2)].
    - right. destruct sv1 as [|p l]; [discriminate|]. remember (p :: l) as sv1 eqn:El.
      assert (L1 : (0 < length sv1)%nat) by (subst sv1; cbn; lia).
      assert (J1 : exists j, a_e1 s = Z.of_nat j /\ (j < length sv1)%nat).
      { destruct O1 as [[O1 _]|[O1 _]]; [exists 0%nat; auto|]. exists (Z.to_nat (a_e1 s)). lia. }
      destruct J1 as (j & Ej & Lj). rewrite Ej in H.
      destruct (py_get_ok sv1 (Z.of_nat j) j) as (e1 & G1 & _); [apply py_index_nat; auto|]. rewrite G1 in H. cbn [bind] in H.
      assert (J2 : exists j2, py_index (length sv1) (a_e2 s) = Some j2).
      { destruct O1 as [[_ O1]|[_ O1]].
        - rewrite O1. exists 0%nat. apply (py_index_nat _ 0). auto.
        - destruct (Z.eq_dec (a_e2 s) (-1)) as [->|Ne]; [exists (length sv1 - 1)%nat; apply (py_index_neg _ 1); unfold pt in *; lia|].
          destruct (Z_of_nat_complete (a_e2 s)) as [q Eq]; [lia|]. rewrite Eq. exists q. apply py_index_nat. lia. }
      destruct J2 as (j2 & Ej2). destruct (py_get_ok sv1 (a_e2 s) j2 Ej2) as (e2 & G2 & _). rewrite G2 in H. cbn [bind] in H.
      apply adjust_exn in H as (-> & k & x & y & Ik & Ex); [|auto]. split; auto. rewrite Forall_forall in F1.
      exists k, v, e1, e2, x, y. repeat split; eauto using py_get_in.
    - assert (E2 : sv2 = [] -> sv1 = []).
      { destruct sv1 as [|p l]; auto. binv H1. binv H1. intros ->. exfalso.
        assert (length (@nil (pt R)) = length (p :: l)); [|discriminate].
        clear - H1 O1. assert (J1 : exists j, a_e1 s = Z.of_nat j).
        { destruct O1 as [[O1 _]|[O1 _]]; [exists 0%nat; auto|]. exists (Z.to_nat (a_e1 s)). lia. }
        destruct J1 as (j & Ej). rewrite Ej in H1. apply adjust_stay in H1 as [H1 _]. exact H1. }
      apply bind_exn in H2 as [H2|(s3 & H2 & H3)].
      + destruct adj; [discriminate|]. apply augment_loop_exn in H2 as [[-> H2]|H2]; auto; [|apply incl_refl]. cbn [a_sv] in H2.
        left. destruct (N1 (E2 H2)). auto.
      + apply bind_exn in H3 as [H3|(a & _ & H3)]; [|discriminate]. left.
        assert (A : a_sv s3 = []).
        { destruct (exists_last_or_nil (a_sv s3)) as [A|(l & w & A)]; auto. rewrite A, py_last in H3. discriminate. }
        rewrite A in H3. cbn in H3. injection H3 as <-.
        assert (A2 : sv2 = []).
        { destruct adj; [injection H2 as <-; exact A|]. clear - H2 A. 
          assert (Hx : forall ks i s s', augment_loop W K v vp vb i ks s = Ret s' -> a_sv s' = [] -> a_sv s = []).
          { clear. induction ks as [|k ks IH]; intros i s s' H N; cbn [augment_loop] in H.
            - injection H as <-. auto.
            - destruct (pw_meet W (line_seg k v)) eqn:E.
              1: { destruct (_ && _); [|eapply IH; eauto]. binv H. destruct x as [[sv e1] e2].
                   apply IH in H; auto. cbn in H. apply augment_idx in E0 as [_ E0]. contradiction. }
              all: destruct (find _ _) as [u|] eqn:Fd; [|eapply IH; eauto]; destruct (forallb _ _); [|eapply IH; eauto];
                binv H; binv H; destruct x0 as [[sv e1] e2]; apply IH in H; auto; cbn in H; apply augment_idx in E1 as [_ E1]; contradiction. }
          apply Hx in H2; auto. }
        destruct (N1 (E2 A2)). auto.
  Qed.
  Lemma vertex_step_idx v vp s vb s' vb' : idx_ok (a_e1 s) (a_e2 s) (a_sv s) ->
    vertex_step W K v vp (s, vb) = Ret (s', vb') -> idx_ok (a_e1 s') (a_e2 s') (a_sv s').
  Proof.
    intros O H. unfold vertex_step in H. destruct (visible W K v); [|injection H as <- <-; auto].
    cbv zeta in H. remember (add_vertex W K v (a_sv s)) as sv1 eqn:Es.
    assert (O1 : idx_ok (a_e1 s) (a_e2 s) sv1).
    { subst sv1. unfold add_vertex. destruct (_ || _); auto. destruct O as [O|O]; [left; auto|right]. rewrite app_length. cbn [length]. lia. }
    clear Es O. binv H. destruct x as [sv2 adj]. binv H. binv H. injection H as <- <-.
    assert (O2 : idx_ok (a_e1 s) (a_e2 s) sv2).
    { destruct sv1 as [|p l]; [injection E as <- <-; auto|]. binv E. binv E.
      assert (J1 : exists j, a_e1 s = Z.of_nat j).
      { destruct O1 as [[O1 _]|[O1 _]]; [exists 0%nat; auto|]. exists (Z.to_nat (a_e1 s)). lia. }
      destruct J1 as (j & Ej). rewrite Ej in E. apply adjust_stay in E as [E _]. destruct O1 as [O1|O1]; [left; auto|right]. rewrite E. auto. }
    destruct adj; [injection E0 as <-; auto|]. eapply augment_loop_idx; eauto.
  Qed.
  Lemma vertex_step_vbar v vp s vb s' vb' : good_v v -> good vb -> vertex_step W K v vp (s, vb) = Ret (s', vb') ->
    Forall good (a_sv s) -> good vb'.
  Proof.
    intros Gv Gb H F. assert (F' := vertex_step_good W K good good_v G_v G_k G_cross G_shift G_meet _ _ _ _ _ _ Gv H F).
    unfold vertex_step in H. destruct (visible W K v); [|congruence].
    cbv zeta in H. binv H. destruct x. binv H. binv H. injection H as <- <-. rewrite Forall_forall in F'. eauto using py_get_in.
  Qed.
  Lemma vertex_loop_exn vs : forall vp s vb e, Forall good_v vs -> good vb -> Forall good (a_sv s) -> idx_ok (a_e1 s) (a_e2 s) (a_sv s) ->
    vertex_loop W K vp vs (s, vb) = Exn e ->
    (e = IndexErr /\ exists v, In v vs /\ visible W K v = true /\ kept W K v = false) \/ (e = AttributeErr /\ overlapping).
  Proof.
    induction vs as [|v vs IH]; intros vp s vb e Fv Gb F O H; cbn [vertex_loop] in H; [discriminate|].
    inversion Fv; subst. apply bind_exn in H as [H|([s1 vb1] & H1 & H2')].
    - apply vertex_step_exn in H as [(-> & _ & A & B)|H]; auto. left. split; auto. exists v; simpl; auto.
    - apply IH in H2' as [(-> & w & I & X)|X]; auto.
      + left. split; auto. exists w; simpl; auto.
      + eapply vertex_step_vbar; eauto.
      + eapply vertex_step_good; eauto.
      + eapply vertex_step_idx; eauto.
  Qed.
End Fail.
