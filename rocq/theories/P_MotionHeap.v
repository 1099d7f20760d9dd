(** C111: positions of obstacles behave like values *)
From Coq Require Import Reals Lra Lia List Bool Arith.
From Verif Require Import Num Spec M_Cg M_Motion M_Obstacle M_MotionHeap S_MotionHeap L_Geom.
Import ListNotations.
Open Scope R_scope.

Lemma nth_upd_same {A} n (a : A) l : (n < length l)%nat -> nth_error (upd n a l) n = Some a.
Proof. revert n. induction l as [|b l IH]; intros [|n] H; cbn in *; try lia; auto. apply IH. lia. Qed.
Lemma nth_upd_other {A} n m (a : A) l : n <> m -> nth_error (upd n a l) m = nth_error l m.
Proof. revert n m. induction l as [|b l IH]; intros [|n] [|m] H; cbn in *; auto; try congruence. Qed.
Lemma upd_length {A} n (a : A) l : length (upd n a l) = length l.
Proof. revert n. induction l as [|b l IH]; intros [|n]; cbn; auto. Qed.
Lemma nth_upd {A} n m (a : A) l : nth_error (upd n a l) m = if Nat.eqb n m then (match nth_error l m with None => None | Some _ => Some a end) else nth_error l m.
Proof.
  destruct (Nat.eqb_spec n m) as [<-|N]; [|apply nth_upd_other; auto].
  destruct (nth_error l n) eqn:E. - apply nth_upd_same. apply nth_error_Some. congruence.
  - apply nth_error_None. rewrite upd_length. apply nth_error_None. auto.
Qed.
Lemma nth_app_last {A} (l : list A) a n : nth_error (l ++ [a]) n = if Nat.eqb n (length l) then Some a else nth_error l n.
Proof.
  destruct (Nat.eqb_spec n (length l)) as [->|N]. - rewrite nth_error_app2 by lia. rewrite Nat.sub_diag. reflexivity.
  - destruct (Nat.lt_ge_cases n (length l)). + apply nth_error_app1; auto. + rewrite nth_error_app2 by lia. assert (E : nth_error l n = None) by (apply nth_error_None; lia). rewrite E. apply nth_error_None. cbn. lia.
Qed.
Lemma o_at_upd h l o l' : o_at (upd l o h) l' = if (Nat.eqb l l' && Nat.ltb l (length h))%bool then o else o_at h l'.
Proof.
  unfold o_at. revert l l'. induction h as [|a h IH]; intros [|l] [|l']; cbn [upd nth length]; auto.
  - rewrite andb_false_r. auto. - rewrite IH. reflexivity.
Qed.
Lemma o_at_app h o l : o_at (h ++ [o]) l = if Nat.eqb l (length h) then o else o_at h l.
Proof.
  unfold o_at. destruct (Nat.eqb_spec l (length h)) as [->|N]. - rewrite app_nth2 by lia. rewrite Nat.sub_diag. reflexivity.
  - destruct (Nat.lt_ge_cases l (length h)). + apply app_nth1; auto. + rewrite !nth_overflow; auto; try lia. rewrite app_length. cbn. lia.
Qed.

(** the two runs agree on everything that may be read *)
Record agree (us : list use) (s : hst) (v : vst) : Prop := {
  ag_lu : length us = length (vars s); ag_lv : length (vvars v) = length (vars s); ag_lm : length (vmodels v) = length (models s);
  ag_mod : forall i m, nth_error (models s) i = Some m -> nth_error (vmodels v) i = Some (hview (heap s) m) /\ (h_pos m < length (heap s))%nat;
  ag_sep : forall i j m m', nth_error (models s) i = Some m -> nth_error (models s) j = Some m' -> h_pos m = h_pos m' -> i = j;
  ag_var : forall x l, nth_error (vars s) x = Some l -> (l < length (heap s))%nat /\ (nth_error us x <> Some Gone -> nth_error (vvars v) x = Some (o_val (o_at (heap s) l)));
  ag_view : forall x l i, nth_error (vars s) x = Some l -> nth_error us x = Some (View i) -> exists m, nth_error (models s) i = Some m /\ h_pos m = l;
  ag_own : forall x l, nth_error (vars s) x = Some l -> nth_error us x = Some Own -> (forall i m, nth_error (models s) i = Some m -> h_pos m <> l) /\ (forall y, nth_error (vars s) y = Some l -> nth_error us y = Some Own -> y = x) }.

Lemma agree_start : agree [] h_start v_start.
Proof. constructor; cbn; auto; try (intros [|?] * E; discriminate E); intros [|?] [|?] * E; discriminate E. Qed.

Ltac both := match goal with |- context [Nat.eqb ?a ?b] => let W := fresh "W" in destruct (Nat.eqb_spec a b) as [W|W] | H : context [Nat.eqb ?a ?b] |- _ => let W := fresh "W" in destruct (Nat.eqb_spec a b) as [W|W] end.

(** an object is added that no one refers to yet *)
Lemma hview_app h o m : (h_pos m < length h)%nat -> hview (h ++ [o]) m = hview h m.
Proof. intros H. unfold hview. rewrite o_at_app. destruct (Nat.eqb_spec (h_pos m) (length h)); [lia|reflexivity]. Qed.
Lemma hview_upd h l o m : h_pos m <> l -> hview (upd l o h) m = hview h m.
Proof. intros H. unfold hview. rewrite o_at_upd. destruct (Nat.eqb_spec l (h_pos m)); [congruence|reflexivity]. Qed.
Lemma nth_map_end i us x u : nth_error (map (end_view i) us) x = Some u -> exists u', nth_error us x = Some u' /\ u = end_view i u'.
Proof. rewrite nth_error_map. destruct (nth_error us x) as [u'|]; cbn; intros [= <-]. eauto. Qed.


Lemma step_agree us s v o us' s' v' : agree us s v -> track us o = Some us' -> h_step s o = Ret s' -> v_step v o = Some v' -> agree us' s' v'.
Proof.
  intros A T H V. destruct A as [lu lv lm Am As Av Aw Ao]. destruct o as [k p|x p|c x rot|i x|i|i dt]; cbn [track h_step v_step] in *.
  - (* New *) injection T as <-. injection H as <-. injection V as <-.
    assert (X : forall x l, nth_error (vars s ++ [length (heap s)]) x = Some l -> (x = length (vars s) /\ l = length (heap s)) \/ (x <> length (vars s) /\ nth_error (vars s) x = Some l /\ (l < length (heap s))%nat)).
    { intros x l E. rewrite nth_app_last in E. both; [injection E as <-; auto|]. right. split; auto. split; auto. apply (Av x); auto. }
    constructor; cbn [heap vars models vvars vmodels]; rewrite ?app_length; cbn [length]; try lia.
    + intros i m E. destruct (Am i m E) as (E1 & E2). rewrite hview_app by auto. split; auto. lia.
    + exact As.
    + intros x l E. destruct (X x l E) as [(-> & ->)|(N & E' & L)].
      * split; [lia|]. intros _. rewrite nth_app_last, lv, o_at_app, !Nat.eqb_refl. reflexivity.
      * split; [lia|]. rewrite !nth_app_last, lu, lv, o_at_app. both; [congruence|]. both; [lia|]. apply Av; auto.
    + intros x l i E U. rewrite nth_app_last, lu in U. destruct (X x l E) as [(-> & ->)|(N & E' & L)]; both; try congruence. apply (Aw x l i); auto.
    + intros x l E U. rewrite nth_app_last, lu in U. destruct (X x l E) as [(-> & ->)|(N & E' & L)].
      * split; [intros i m E'; destruct (Am i m E'); lia|]. intros y Ey _. destruct (X y _ Ey) as [(-> & _)|(_ & _ & L)]; [auto|lia].
      * both; [congruence|]. destruct (Ao x l E' U) as (O1 & O2). split; auto. intros y Ey Uy. destruct (X y l Ey) as [(-> & ->)|(N' & Ey' & L')]; [lia|].
        apply O2; auto. rewrite nth_app_last, lu in Uy. both; congruence.
  - (* Write *) destruct (nth_error us x) as [[|i|]|] eqn:U; try discriminate. injection T as <-.
    destruct (nth_error (vars s) x) as [l|] eqn:E; [|discriminate]. destruct (nth_error (vvars v) x) as [q|] eqn:Q; [|discriminate]. injection V as <-.
    destruct (Av x l E) as (L & _). destruct (Ao x l E U) as (O1 & O2).
    assert (G : exists k, s' = HS (upd l (Obj k p) (heap s)) (vars s) (models s)). { destruct (o_kind _); try discriminate; injection H as <-; eauto. }
    destruct G as (k & ->). clear H. constructor; cbn [heap vars models vvars vmodels]; rewrite ?upd_length; auto.
    + intros i m Em. rewrite hview_upd by eauto. auto.
    + intros y l' Ey. destruct (Av y l' Ey) as (L' & Vy). split; auto. intros G. rewrite nth_upd, o_at_upd. destruct (Nat.eqb_spec x y) as [<-|N].
      * rewrite E in Ey. injection Ey as <-. rewrite Q, Nat.eqb_refl. apply Nat.ltb_lt in L. rewrite L. reflexivity.
      * destruct (Nat.eqb_spec l l') as [<-|N']; [|cbn; auto]. exfalso. destruct (nth_error us y) as [[|j|]|] eqn:Uy.
        -- apply N. symmetry. apply O2; auto.
        -- destruct (Aw y l j Ey Uy) as (m & Em & El). apply (O1 j m); auto.
        -- congruence.
        -- apply nth_error_None in Uy. rewrite lu in Uy. apply nth_error_None in Uy. congruence.
  - (* Make *)
    assert (G : us' = us /\ exists p, s' = HS (heap s ++ [Obj KFloat p]) (vars s) (models s ++ [HM c (length (heap s)) rot 0 0]) /\ v' = VS (vvars v) (vmodels v ++ [MM c p rot 0 0])).
    { destruct x as [x|]; [|injection T as <-; injection H as <-; injection V as <-; eauto].
      destruct (nth_error us x) as [u|] eqn:U; [|discriminate]. destruct (nth_error (vars s) x) as [l|] eqn:E; [|discriminate]. injection H as <-.
      assert (G : u <> Gone /\ us' = us) by (destruct u; try discriminate; injection T as <-; split; auto; discriminate). destruct G as (G & ->). split; auto.
      destruct (Av x l E) as (_ & G2). rewrite G2 in V by congruence. injection V as <-. eauto. }
    destruct G as (-> & p & -> & ->). clear T H V.
    assert (X : forall i m, nth_error (models s ++ [HM c (length (heap s)) rot 0 0]) i = Some m -> (i = length (models s) /\ m = HM c (length (heap s)) rot 0 0) \/ (i <> length (models s) /\ nth_error (models s) i = Some m /\ (h_pos m < length (heap s))%nat)).
    { intros i m E. rewrite nth_app_last in E. both; [injection E as <-; auto|]. right. split; auto. split; auto. apply (Am i); auto. }
    constructor; cbn [heap vars models vvars vmodels]; rewrite ?app_length; cbn [length]; try lia.
    + intros i m E. rewrite nth_app_last, lm. destruct (X i m E) as [(-> & ->)|(N & E' & L)].
      * rewrite Nat.eqb_refl. unfold hview. cbn [h_pos h_class h_rot h_t h_idx]. rewrite o_at_app, Nat.eqb_refl. split; [reflexivity|lia].
      * both; [congruence|]. rewrite hview_app by auto. split; [apply Am; auto|lia].
    + intros i j m m' E E' P. destruct (X i m E) as [(-> & ->)|(N & Ei & L)], (X j m' E') as [(-> & ->)|(N' & Ej & L')]; cbn [h_pos] in P; try lia. apply (As i j m m'); auto.
    + intros x' l E. destruct (Av x' l E) as (L & G). split; [lia|]. rewrite o_at_app. both; [lia|]. auto.
    + intros x' l i E U. destruct (Aw x' l i E U) as (m & Em & El). exists m. split; auto. rewrite nth_app_last. both; [|auto]. assert (nth_error (models s) i <> None) by congruence. apply nth_error_Some in H. lia.
    + intros x' l E U. destruct (Ao x' l E U) as (O1 & O2). split; auto. intros i m Em. destruct (Av x' l E) as (L & _). destruct (X i m Em) as [(-> & ->)|(N & Ei & _)]; [cbn; lia|eauto].
  - (* SetPos *) destruct (nth_error us x) as [[|i'|]|] eqn:U; try discriminate. injection T as <-.
    destruct (nth_error (models s) i) as [m|] eqn:M; [|discriminate]. destruct (nth_error (vars s) x) as [l|] eqn:E; [|discriminate]. injection H as <-.
    destruct (Am i m M) as (M1 & M2). rewrite M1 in V. destruct (Av x l E) as (L & Vx). rewrite Vx in V by congruence. injection V as <-.
    destruct (Ao x l E U) as (O1 & O2). set (m' := HM (h_class m) l (h_rot m) (h_t m) (h_idx m)).
    assert (X : forall j n, nth_error (upd i m' (models s)) j = Some n -> (j = i /\ n = m') \/ (j <> i /\ nth_error (models s) j = Some n)).
    { intros j n Ej. rewrite nth_upd in Ej. both; [subst j; rewrite M in Ej; injection Ej as <-; auto|auto]. }
    assert (Y : forall y u, nth_error (upd x (View i) (map (end_view i) us)) y = Some u -> (y = x /\ u = View i) \/ (y <> x /\ exists u', nth_error us y = Some u' /\ u = end_view i u')).
    { intros y u Ey. rewrite nth_upd in Ey. both. - subst y. destruct (nth_error (map _ us) x); [|discriminate]. injection Ey as <-. auto. - right. split; auto. apply nth_map_end; auto. }
    constructor; cbn [heap vars models vvars vmodels]; rewrite ?upd_length, ?map_length; auto.
    + intros j n Ej. destruct (X j n Ej) as [(-> & ->)|(N & Ej')].
      * split; [|auto]. rewrite nth_upd_same; [reflexivity|]. apply nth_error_Some. congruence.
      * rewrite nth_upd_other by auto. apply Am; auto.
    + intros j j' n n' Ej Ej' P. destruct (X j n Ej) as [(-> & ->)|(N & F)], (X j' n' Ej') as [(-> & ->)|(N' & F')]; cbn [h_pos] in P; auto.
      * exfalso. apply (O1 j' n'); auto. * exfalso. apply (O1 j n); auto. * apply (As j j' n n'); auto.
    + intros y ly Ey. destruct (Av y ly Ey) as (Ly & Vy). split; auto. intros G. apply Vy. intros G'. apply G. rewrite nth_upd. both; [subst y; rewrite U in G'; discriminate|]. rewrite nth_error_map, G'. reflexivity.
    + intros y ly j Ey Uy. destruct (Y y _ Uy) as [(-> & Ev)|(N & u & Eu & Ev)].
      * injection Ev as ->. exists m'. split; [rewrite nth_upd_same; auto; apply nth_error_Some; congruence|]. cbn. congruence.
      * destruct u as [|j'|]; cbn in Ev; try discriminate. both; [discriminate|]. injection Ev as ->. destruct (Aw y ly j' Ey Eu) as (n & En & El). exists n. split; auto. rewrite nth_upd_other; auto.
    + intros y ly Ey Uy. destruct (Y y _ Uy) as [(-> & Ev)|(N & u & Eu & Ev)]; [discriminate|]. destruct u as [|j'|]; cbn in Ev; try discriminate; [|both; discriminate].
      destruct (Ao y ly Ey Eu) as (P1 & P2). split.
      * intros j n Ej. destruct (X j n Ej) as [(-> & ->)|(N' & Ej')]; [|eauto]. cbn. intros ->. apply N. apply O2; auto.
      * intros z Ez Uz. apply P2; auto. destruct (Y z _ Uz) as [(-> & Ev')|(N' & u & Eu' & Ev')]; [discriminate|]. destruct u as [|j''|]; cbn in Ev'; try discriminate; [auto|both; discriminate].
  - (* GetPos *) injection T as <-. destruct (nth_error (models s) i) as [m|] eqn:M; [|discriminate]. injection H as <-. destruct (Am i m M) as (M1 & M2). rewrite M1 in V. injection V as <-.
    assert (X : forall x l, nth_error (vars s ++ [h_pos m]) x = Some l -> (x = length (vars s) /\ l = h_pos m) \/ (x <> length (vars s) /\ nth_error (vars s) x = Some l)).
    { intros x l E. rewrite nth_app_last in E. both; [injection E as <-; auto|]. auto. }
    constructor; cbn [heap vars models vvars vmodels]; rewrite ?app_length; cbn [length]; auto.
    + intros x l E. destruct (X x l E) as [(-> & ->)|(N & E')].
      * split; auto. intros _. rewrite nth_app_last, lv, Nat.eqb_refl. reflexivity.
      * rewrite !nth_app_last, lu, lv. both; [congruence|]. auto.
    + intros x l j E U. rewrite nth_app_last, lu in U. destruct (X x l E) as [(-> & ->)|(N & E')]; both; try congruence. * injection U as <-. eauto. * apply (Aw x l j); auto.
    + intros x l E U. rewrite nth_app_last, lu in U. destruct (X x l E) as [(-> & ->)|(N & E')]; both; try congruence. destruct (Ao x l E' U) as (O1 & O2). split; auto.
      intros y Ey Uy. rewrite nth_app_last, lu in Uy. destruct (X y l Ey) as [(-> & ->)|(N' & Ey')]; both; try congruence. auto.
  - (* Move *) injection T as <-. destruct (nth_error (models s) i) as [m|] eqn:M; [|discriminate]. destruct (Am i m M) as (M1 & M2). rewrite M1 in V.
    unfold move in V. unfold h_move in H. destruct (lin_vel (hview (heap s) m)) as [| |idx w] eqn:Ev; try discriminate. injection V as <-.
    set (nv := padd (o_val (o_at (heap s) (h_pos m))) (scale dt w)) in *.
    assert (Y : forall y u, nth_error (map (end_view i) us) y = Some u -> u <> Gone -> nth_error us y = Some u /\ u <> View i).
    { intros y u Ey G. apply nth_map_end in Ey as (u' & Eu & ->). destruct u' as [|j|]; cbn in *; try congruence; [split; auto; discriminate|]. both; [congruence|]. split; auto. congruence. }
    assert (Z : forall y l, nth_error (vars s) y = Some l -> nth_error (map (end_view i) us) y <> Some Gone -> l <> h_pos m /\ nth_error us y <> Some Gone).
    { intros y l Ey G. destruct (nth_error (map (end_view i) us) y) as [u|] eqn:Eu. 2:{ apply nth_error_None in Eu. rewrite map_length, lu in Eu. apply nth_error_None in Eu. congruence. }
      destruct (Y y u Eu) as (Eu' & Nu); [congruence|]. split; [|congruence]. intros ->. destruct u as [|j|]; [|destruct (Aw y _ j Ey Eu') as (n & En & El); apply Nu; f_equal; apply (As j i n m); auto|congruence].
      apply (Ao y _ Ey Eu') with (1 := M). reflexivity. }
    set (rt := h_rot m + rot_vel (hview (heap s) m) * dt) in *.
    assert (X : forall n' j n, nth_error (upd i n' (models s)) j = Some n -> (j = i /\ n = n') \/ (j <> i /\ nth_error (models s) j = Some n /\ h_pos n <> h_pos m)).
    { intros n' j n Ej. rewrite nth_upd in Ej. both; [subst j; rewrite M in Ej; injection Ej as <-; auto|]. right. split; auto. split; auto. intros P. apply W. symmetry. apply (As j i n m); auto. }
    destruct (o_kind (o_at (heap s) (h_pos m))); try discriminate; injection H as <-; constructor; cbn [heap vars models vvars vmodels]; rewrite ?upd_length, ?map_length, ?app_length; cbn [length]; auto.
    + intros j n Ej. destruct (X _ j n Ej) as [(-> & ->)|(N & Ej' & P)].
      * split; auto. rewrite nth_upd_same by (apply nth_error_Some; congruence). unfold hview. cbn [h_pos h_class h_rot h_t h_idx m_class m_pos m_rot m_t m_idx]. rewrite o_at_upd, Nat.eqb_refl. apply Nat.ltb_lt in M2. rewrite M2. reflexivity.
      * rewrite nth_upd_other by auto. rewrite hview_upd by auto. apply Am; auto.
    + intros j j' n n' Ej Ej' P. destruct (X _ j n Ej) as [(-> & ->)|(N & F & Q)], (X _ j' n' Ej') as [(-> & ->)|(N' & F' & Q')]; cbn [h_pos] in P; auto; try congruence. apply (As j j' n n'); auto.
    + intros y l Ey. destruct (Av y l Ey) as (L & G). split; auto. intros G'. destruct (Z y l Ey G') as (N & G2). rewrite o_at_upd. both; [congruence|]. cbn. auto.
    + intros y l j Ey Uy. destruct (Y y _ Uy) as (Uy' & N); [discriminate|]. destruct (Aw y l j Ey Uy') as (n & En & El). assert (j <> i) by congruence. exists n. split; auto. rewrite nth_upd_other; auto.
    + intros y l Ey Uy. destruct (Y y _ Uy) as (Uy' & _); [discriminate|]. destruct (Ao y l Ey Uy') as (O1 & O2). split.
      * intros j n Ej. destruct (X _ j n Ej) as [(-> & ->)|(N & F & Q)]; [cbn; eauto|eauto].
      * intros z Ez Uz. apply O2; auto. apply Y; [auto|discriminate].
    + intros j n Ej. destruct (X _ j n Ej) as [(-> & ->)|(N & Ej' & P)].
      * split; [|cbn; lia]. rewrite nth_upd_same by (apply nth_error_Some; congruence). unfold hview. cbn [h_pos h_class h_rot h_t h_idx m_class m_pos m_rot m_t m_idx]. rewrite o_at_app, Nat.eqb_refl. reflexivity.
      * rewrite nth_upd_other by auto. destruct (Am j n Ej') as (E1 & E2). rewrite hview_app by auto. split; auto. lia.
    + intros j j' n n' Ej Ej' P. destruct (X _ j n Ej) as [(-> & ->)|(N & F & Q)], (X _ j' n' Ej') as [(-> & ->)|(N' & F' & Q')]; cbn [h_pos] in P; auto.
      * destruct (Am j' n' F'); lia. * destruct (Am j n F); lia. * apply (As j j' n n'); auto.
    + intros y l Ey. destruct (Av y l Ey) as (L & G). split; [lia|]. intros G'. destruct (Z y l Ey G') as (N & G2). rewrite o_at_app. both; [lia|]. auto.
    + intros y l j Ey Uy. destruct (Y y _ Uy) as (Uy' & N); [discriminate|]. destruct (Aw y l j Ey Uy') as (n & En & El). assert (j <> i) by congruence. exists n. split; auto. rewrite nth_upd_other; auto.
    + intros y l Ey Uy. destruct (Y y _ Uy) as (Uy' & _); [discriminate|]. destruct (Ao y l Ey Uy') as (O1 & O2). split.
      * intros j n Ej. destruct (X _ j n Ej) as [(-> & ->)|(N & F & Q)]; [|eauto]. cbn. destruct (Av y l Ey). lia.
      * intros z Ez Uz. apply O2; auto. apply Y; [auto|discriminate].
Qed.

Lemma nth_none_len {A B} (l : list A) (l' : list B) n : length l = length l' -> nth_error l n = None -> nth_error l' n = None.
Proof. intros E H. apply nth_error_None. apply nth_error_None in H. lia. Qed.
Lemma step_value us s v o us' s' : agree us s v -> track us o = Some us' -> h_step s o = Ret s' -> exists v', v_step v o = Some v'.
Proof.
  intros A T H. destruct A as [lu lv lm Am As Av Aw Ao]. destruct o as [k p|x p|c x rot|i x|i|i dt]; cbn [track h_step v_step] in *; eauto.
  - destruct (nth_error (vvars v) x) eqn:E; eauto. apply (nth_none_len _ _ _ lv) in E. rewrite E in H. discriminate.
  - destruct x as [x|]; eauto. destruct (nth_error (vvars v) x) eqn:E; eauto. apply (nth_none_len _ _ _ lv) in E. rewrite E in H. discriminate.
  - destruct (nth_error (models s) i) eqn:M; [|discriminate]. apply Am in M as (-> & _). destruct (nth_error (vvars v) x) eqn:E; eauto. apply (nth_none_len _ _ _ lv) in E. rewrite E in H. discriminate.
  - destruct (nth_error (models s) i) eqn:M; [|discriminate]. apply Am in M as (-> & _). eauto.
  - destruct (nth_error (models s) i) as [m|] eqn:M; [|discriminate]. apply Am in M as (-> & _). unfold h_move in H. unfold move. destruct (lin_vel _); try discriminate. eauto.
Qed.
(** float arrays and lists *)
Definition good_kind (k : kind) : Prop := k = KFloat \/ k = KList.
Lemma step_runs us s v o us' v' : agree us s v -> track us o = Some us' -> v_step v o = Some v' -> (forall l, good_kind (o_kind (o_at (heap s) l))) ->
  match o with New k _ => good_kind k | _ => True end -> exists s', h_step s o = Ret s' /\ forall l, good_kind (o_kind (o_at (heap s') l)).
Proof.
  intros A T V K Ko. destruct A as [lu lv lm Am As Av Aw Ao].
  assert (Ka : forall o l, good_kind (o_kind o) -> good_kind (o_kind (o_at (heap s ++ [o]) l))). { intros o' l Ho. rewrite o_at_app. both; auto. }
  assert (Ku : forall o n l, good_kind (o_kind o) -> good_kind (o_kind (o_at (upd n o (heap s)) l))). { intros o' n l Ho. rewrite o_at_upd. destruct (_ && _)%bool; auto. }
  assert (KF : good_kind KFloat) by (left; auto). assert (KL : good_kind KList) by (right; auto).
  destruct o as [k p|x p|c x rot|i x|i|i dt]; cbn [track h_step v_step] in *; eauto.
  - destruct (nth_error (vars s) x) as [l|] eqn:E; [|apply (nth_none_len _ _ _ (eq_sym lv)) in E; rewrite E in V; discriminate].
    destruct (K l) as [->| ->]; eexists; (split; [reflexivity|]); cbn; intros; apply Ku; auto.
  - destruct x as [x|]; [|eexists; split; [reflexivity|]; cbn; intros; apply Ka; exact KF]. destruct (nth_error (vars s) x) as [l|] eqn:E; [|apply (nth_none_len _ _ _ (eq_sym lv)) in E; rewrite E in V; discriminate].
    eexists; split; [reflexivity|]; cbn; intros; apply Ka; exact KF.
  - destruct (nth_error (models s) i) as [m|] eqn:M; [|apply (nth_none_len _ _ _ (eq_sym lm)) in M; rewrite M in V; discriminate].
    destruct (nth_error (vars s) x) as [l|] eqn:E; [|apply (nth_none_len _ _ _ (eq_sym lv)) in E; rewrite E in V; destruct (nth_error (vmodels v) i); discriminate].
    eexists; split; [reflexivity|]; cbn; auto.
  - destruct (nth_error (models s) i) as [m|] eqn:M; [|apply (nth_none_len _ _ _ (eq_sym lm)) in M; rewrite M in V; discriminate].
    eexists; split; [reflexivity|]; cbn; auto.
  - destruct (nth_error (models s) i) as [m|] eqn:M; [|apply (nth_none_len _ _ _ (eq_sym lm)) in M; rewrite M in V; discriminate].
    apply Am in M as (E & _). rewrite E in V. unfold move in V. unfold h_move. destruct (lin_vel _); try discriminate.
    destruct (K (h_pos m)) as [->| ->]; eexists; (split; [reflexivity|]); cbn; intros; [apply Ku|apply Ka]; auto.
Qed.

Lemma run_values l : forall us0 s0 v0 us s, agree us0 s0 v0 -> tidy us0 l = Some us -> h_run s0 l = Ret s -> exists v, v_run v0 l = Some v /\ agree us s v.
Proof.
  induction l as [|o l IH]; intros us0 s0 v0 us s A T H; cbn in *. - injection T as <-. injection H as <-. eauto.
  - destruct (track us0 o) as [us1|] eqn:E; [|discriminate]. destruct (h_step s0 o) as [s1|] eqn:F; [|discriminate]. cbn in H.
    destruct (step_value _ _ _ _ _ _ A E F) as (v1 & G). rewrite G. eapply IH; eauto. eapply step_agree; eauto.
Qed.
Lemma run_runs l : forall us0 s0 v0 us v, agree us0 s0 v0 -> tidy us0 l = Some us -> v_run v0 l = Some v -> (forall n, good_kind (o_kind (o_at (heap s0) n))) ->
  (forall k p, In (New k p) l -> k = KFloat \/ k = KList) -> exists s, h_run s0 l = Ret s.
Proof.
  induction l as [|o l IH]; intros us0 s0 v0 us v A T V K N; cbn in *; eauto.
  destruct (track us0 o) as [us1|] eqn:E; [|discriminate]. destruct (v_step v0 o) as [v1|] eqn:F; [|discriminate].
  destruct (step_runs _ _ _ _ _ _ A E F K) as (s1 & G & K1). { destruct o; auto. apply (N k p). auto. }
  rewrite G. cbn. eapply IH; eauto. eapply step_agree; eauto.
Qed.

(** without sharing, what the caller finds in variables and positions is as if every variable and every motion model had its own numbers *)
Theorem C111_values_partial : forall l us s, tidy [] l = Some us -> h_run h_start l = Ret s ->
  exists v, v_run v_start l = Some v /\ (forall i, model_at s i = nth_error (vmodels v) i) /\ forall x, nth_error us x <> Some Gone -> var_val s x = nth_error (vvars v) x.
Proof.
  intros l us s T H. destruct (run_values l _ _ _ _ _ agree_start T H) as (v & V & A). exists v. split; auto. destruct A as [lu lv lm Am As Av Aw Ao]. split.
  - intros i. unfold model_at. destruct (nth_error (models s) i) as [m|] eqn:M; cbn. + symmetry. apply Am; auto. + symmetry. apply (nth_none_len _ _ _ (eq_sym lm)); auto.
  - intros x G. unfold var_val. destruct (nth_error (vars s) x) as [n|] eqn:E; cbn. + symmetry. apply Av; auto. + symmetry. apply (nth_none_len _ _ _ (eq_sym lv)); auto.
Qed.
Print Assumptions C111_values_partial.
(** and with float arrays and lists nothing is raised that would not be raised then *)
Theorem C111_no_exception : forall l us v, tidy [] l = Some us -> v_run v_start l = Some v -> (forall k p, In (New k p) l -> k = KFloat \/ k = KList) -> exists s, h_run h_start l = Ret s.
Proof. intros l us v T V N. apply (run_runs l _ _ _ _ _ agree_start T V); auto. intros n. left. unfold o_at. destruct n; reflexivity. Qed.
Print Assumptions C111_no_exception.

(** an array with the position of one obstacle is copied for a second one, the first is placed with a list, both move *)
Definition slide : mm_class := CSinus true 1 0 0 0.
Lemma slide_vel p rot t idx : lin_vel (MM slide p rot t idx) = Vel idx (1, 0).
Proof. unfold lin_vel, slide. cbn [m_class m_idx m_t]. f_equal. rewrite !Rmult_0_l, cos_0. apply pair_eq; ring. Qed.
Example C111_example : let l := [New KFloat (1, 2); Make slide (Some 0%nat) 0; New KList (3, 4); SetPos 0 1; GetPos 0; Make slide (Some 2%nat) 0; Write 0 (5, 5); Move 0 1; Move 1 1; Move 0 1] in
  tidy [] l = Some [Own; Gone; Gone] /\ (forall k p, In (New k p) l -> k = KFloat \/ k = KList) /\
  exists s, h_run h_start l = Ret s /\ option_map m_pos (model_at s 0) = Some (5, 4) /\ option_map m_pos (model_at s 1) = Some (4, 4) /\ var_val s 0 = Some (5, 5).
Proof.
  intros l. split; [reflexivity|]. split. { intros k p [E|[E|[E|[E|[E|[E|[E|[E|[E|[E|[]]]]]]]]]]]; inversion E; auto. }
  unfold l. eexists. split.
  { cbn -[lin_vel rot_vel padd scale]. unfold h_move, hview, o_at. cbn -[lin_vel rot_vel padd scale]. rewrite slide_vel.
    cbn -[lin_vel rot_vel padd scale]. unfold h_move, hview, o_at. cbn -[lin_vel rot_vel padd scale]. rewrite slide_vel.
    cbn -[lin_vel rot_vel padd scale]. unfold h_move, hview, o_at. cbn -[lin_vel rot_vel padd scale]. rewrite slide_vel. reflexivity. }
  cbn. unfold padd, scale. cbn. repeat split; f_equal; apply pair_eq; ring.
Qed.

(** one array given to set_pos of two obstacles: when the first moves, the second moves with it, although it is a Static and no method of it is called *)
Theorem C111_shared_refuted : exists l s v p q, h_run h_start l = Ret s /\ v_run v_start l = Some v /\
  (forall o, In o l -> match o with Write _ _ => False | Move i _ => i = 0%nat | _ => True end) /\ option_map m_class (model_at s 1) = Some CStatic /\
  option_map m_pos (model_at s 1) = Some p /\ option_map m_pos (nth_error (vmodels v) 1) = Some q /\ p <> q.
Proof.
  exists [Make slide None 0; Make CStatic None 0; New KFloat (1, 2); SetPos 0 0; SetPos 1 0; Move 0 1].
  eexists. eexists. exists (2, 2), (1, 2). split.
  { cbn -[lin_vel rot_vel padd scale]. unfold h_move, hview, o_at. cbn -[lin_vel rot_vel padd scale]. rewrite slide_vel. reflexivity. }
  split. { cbn -[lin_vel rot_vel padd scale move]. unfold move, set_pos. cbn -[lin_vel rot_vel padd scale]. rewrite slide_vel. reflexivity. }
  split. { intros o [<-|[<-|[<-|[<-|[<-|[<-|[]]]]]]]; auto. }
  split; [reflexivity|]. split; [cbn; unfold padd, scale; cbn; f_equal; apply pair_eq; ring|]. split; [reflexivity|]. intros [= E]. lra.
Qed.
Print Assumptions C111_shared_refuted.
(** move changes the array the caller gave to set_pos, and the array pos returned before *)
Theorem C111_callers_array_refuted : exists l s v p q, h_run h_start l = Ret s /\ v_run v_start l = Some v /\ (forall o, In o l -> match o with Write _ _ => False | _ => True end) /\
  var_val s 0 = Some p /\ nth_error (vvars v) 0 = Some q /\ p <> q.
Proof.
  exists [Make slide None 0; New KFloat (1, 2); SetPos 0 0; Move 0 1]. eexists. eexists. exists (2, 2), (1, 2). split.
  { cbn -[lin_vel rot_vel padd scale]. unfold h_move, hview, o_at. cbn -[lin_vel rot_vel padd scale]. rewrite slide_vel. reflexivity. }
  split. { cbn -[lin_vel rot_vel padd scale move]. unfold move, set_pos. cbn -[lin_vel rot_vel padd scale]. rewrite slide_vel. reflexivity. }
  split. { intros o [<-|[<-|[<-|[<-|[]]]]]; auto. }
  split; [cbn; unfold padd, scale; cbn; f_equal; apply pair_eq; ring|]. split; [reflexivity|]. intros [= E]. lra.
Qed.
Print Assumptions C111_callers_array_refuted.
Theorem C111_returned_array_refuted : exists l s v p q, h_run h_start l = Ret s /\ v_run v_start l = Some v /\ (forall o, In o l -> match o with Write _ _ | SetPos _ _ => False | _ => True end) /\
  var_val s 0 = Some p /\ nth_error (vvars v) 0 = Some q /\ p <> q.
Proof.
  exists [Make slide None 0; GetPos 0; Move 0 1]. eexists. eexists. exists (1, 0), (0, 0). split.
  { cbn -[lin_vel rot_vel padd scale]. unfold h_move, hview, o_at. cbn -[lin_vel rot_vel padd scale]. rewrite slide_vel. reflexivity. }
  split. { cbn -[lin_vel rot_vel padd scale move]. unfold move, set_pos. cbn -[lin_vel rot_vel padd scale]. rewrite slide_vel. reflexivity. }
  split. { intros o [<-|[<-|[<-|[]]]]; auto. }
  split; [cbn; unfold padd, scale; cbn; f_equal; apply pair_eq; ring|]. split; [reflexivity|]. intros [= E]. lra.
Qed.
Print Assumptions C111_returned_array_refuted.
(** a tuple and an array of integers are accepted by the constructor and by set_pos, but after set_pos every move raises, even that of a Static *)
Theorem C111_kinds_raise : forall c p dt rot, (forall m, m_class m = c -> exists v, lin_vel m = Vel (m_idx m) v) ->
  (exists s, h_run h_start [New KTuple p; Make c (Some 0%nat) rot; Move 0 dt] = Ret s) /\
  h_run h_start [New KTuple p; Make c None rot; SetPos 0 0; Move 0 dt] = Exn AttributeErr /\
  (exists s, h_run h_start [New KInt p; Make c (Some 0%nat) rot; Move 0 dt] = Ret s) /\
  h_run h_start [New KInt p; Make c None rot; SetPos 0 0; Move 0 dt] = Exn TypeErr.
Proof.
  intros c p dt rot L. cbn -[lin_vel rot_vel padd scale]. unfold h_move, hview, o_at. cbn -[lin_vel rot_vel padd scale].
  destruct (L (MM c p rot 0 0) eq_refl) as (v & ->). cbn -[padd scale rot_vel]. eauto 8.
Qed.
Print Assumptions C111_kinds_raise.
Example C111_kinds_example : forall m, m_class m = CStatic -> exists v, lin_vel m = Vel (m_idx m) v.
Proof. intros m E. exists (0, 0). unfold lin_vel. rewrite E. reflexivity. Qed.
