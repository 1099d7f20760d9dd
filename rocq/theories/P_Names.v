(** C105: names of obstacles. *)
From Coq Require Import String List Bool ZArith Lia.
From Verif Require Import M_Obstacle M_Clusters L_Clusters M_Names.
Import ListNotations.
Open Scope Z_scope.

(** the obstacle made by the last step of a program, if it made one *)
Definition made_by (l : list naming) (o : naming) (t : tag) : Prop := snd (naming_run (l ++ [o])) = snd (naming_run l) ++ [t].
Definition is_name (n : option string) (s : string) : Prop := n = Some s /\ s <> ""%string.
Definition no_name (o : naming) : Prop :=
  match o with Make _ _ n | Copy _ _ n | Dilate _ _ n => n = None \/ n = Some ""%string end.

Lemma run_last l o : naming_run (l ++ [o]) = naming_step (naming_run l) o.
Proof. unfold naming_run. rewrite fold_left_app. reflexivity. Qed.
Lemma created_name counter c a n s : is_name n s -> str_obstacle (snd (create counter c a n)) = s.
Proof. intros [-> N]. unfold create. destruct (set_id counter a). cbn. destruct (String.eqb_spec s ""); [contradiction|reflexivity]. Qed.

(** every id in use is at most the counter *)
Definition ids_ok (w : Z * list tag) : Prop := 0 <= fst w /\ Forall (fun t => forall z, t_id t = Some z -> 0 < z <= fst w) (snd w).
Lemma create_ok counter c a n : 0 <= counter -> let r := create counter c a n in counter <= fst r /\ forall z, t_id (snd r) = Some z -> 0 < z <= fst r.
Proof.
  intros H. unfold create. destruct a as [| |z|]; cbn; (split; [lia|]); try discriminate; intros z' E.
  - injection E as <-. lia.
  - destruct (Z.ltb_spec 0 z), (Z.leb_spec z counter); cbn in E; try discriminate. injection E as <-. lia.
Qed.
Lemma copy_ok counter t a n : 0 <= counter -> (forall z, t_id t = Some z -> 0 < z <= counter) -> let r := copy_tag counter t a n in counter <= fst r /\ forall z, t_id (snd r) = Some z -> 0 < z <= fst r.
Proof. intros H K. unfold copy_tag. destruct (t_class t), a as [|a]; try (apply create_ok; exact H); cbn; (split; [lia|exact K]). Qed.
Lemma run_ok l : ids_ok (naming_run l).
Proof.
  induction l as [|o l IH] using rev_ind; [split; [cbn; lia|constructor]|]. rewrite run_last. destruct (naming_run l) as [c ts]. destruct IH as [C F]. cbn [fst snd] in *.
  assert (Add : forall r, c <= fst r -> (forall z, t_id (snd r) = Some z -> 0 < z <= fst r) -> ids_ok (fst r, ts ++ [snd r])).
  { intros r L K. split; cbn [fst snd]; [lia|]. apply Forall_app. split; [|constructor; [exact K|constructor]]. eapply Forall_impl; [|exact F]. intros t Ht z E. specialize (Ht z E). lia. }
  assert (Same : ids_ok (c, ts)) by (split; assumption).
  assert (Nth : forall k t, nth_error ts k = Some t -> forall z, t_id t = Some z -> 0 < z <= c) by (intros k t E; rewrite Forall_forall in F; apply F; eapply nth_error_In, E).
  destruct o as [cl a n|k a n|k a n]; cbn [naming_step].
  - destruct (create_ok c cl a n C). apply Add; assumption.
  - destruct (nth_error ts k) as [t|] eqn:E; [|exact Same]. destruct (copy_ok c t a n C (Nth _ _ E)). apply Add; assumption.
  - destruct (nth_error ts k) as [t|] eqn:E; [|exact Same]. unfold dilated_tag. set (a' := match a with Some a => a | None => Id IdNew end). destruct (copy_ok c t a' n C (Nth _ _ E)). destruct (t_class t); [apply Add; assumption..|exact Same].
Qed.

(** a name given when an obstacle is made is its name *)
Theorem C105_made : forall l c a n s, is_name n s -> exists t, made_by l (Make c a n) t /\ str_obstacle t = s.
Proof.
  intros l c a n s H. unfold made_by. rewrite run_last. destruct (naming_run l) as [counter ts]. exists (snd (create counter c a n)). split; [reflexivity|apply created_name, H].
Qed.
Print Assumptions C105_made.
(** also when it is copied, except for duplicates of plain polygons and combinations *)
Theorem C105_copied_partial : forall l k t a n s, nth_error (snd (naming_run l)) k = Some t -> is_name n s ->
  a <> Duplicate \/ t_class t = CEllipse \/ t_class t = CStarPolygon ->
  exists u, made_by l (Copy k a n) u /\ str_obstacle u = s.
Proof.
  intros l k t a n s E H D. unfold made_by. rewrite run_last. destruct (naming_run l) as [counter ts]. cbn [snd] in *. cbn [naming_step]. rewrite E. exists (snd (copy_tag counter t a n)). split; [reflexivity|].
  unfold copy_tag. destruct (t_class t) eqn:Et, a as [|a]; try (apply created_name, H); destruct D as [D|[D|D]]; congruence.
Qed.
Print Assumptions C105_copied_partial.
(** a duplicate has the id of the original, whatever happened before *)
Theorem C105_duplicate_id : forall l k t n, nth_error (snd (naming_run l)) k = Some t ->
  exists u, made_by l (Copy k Duplicate n) u /\ t_id u = t_id t /\ t_class u = t_class t /\ fst (naming_run (l ++ [Copy k Duplicate n])) = fst (naming_run l).
Proof.
  intros l k t n E. unfold made_by. rewrite run_last. pose proof (run_ok l) as [_ F]. destruct (naming_run l) as [counter ts]. cbn [fst snd] in *. cbn [naming_step]. rewrite E. exists (snd (copy_tag counter t Duplicate n)). split; [reflexivity|].
  rewrite Forall_forall in F. specialize (F t (nth_error_In _ _ E)). unfold copy_tag, create, id_again. destruct t as [cl i nm]. cbn [t_class t_id] in *.
  assert (K : (match i with Some z => IdInt z | None => IdOther end) = IdOther /\ i = None \/ exists z, i = Some z /\ 0 < z <= counter) by (destruct i as [z|]; [right; exists z; split; [reflexivity|apply F; reflexivity]|left; split; reflexivity]).
  destruct cl; cbn [fst snd t_id t_class]; try (repeat split; reflexivity);
    (destruct K as [[-> ->]|(z & -> & Hz)]; cbn [set_id fst snd t_id t_class]; [repeat split; reflexivity|]);
    (destruct (Z.ltb_spec 0 z); [|lia]); (destruct (Z.leb_spec z counter); [|lia]); repeat split; reflexivity.
Qed.
Print Assumptions C105_duplicate_id.
(** without names given, the printed names tell obstacles apart exactly as their ids do *)
Theorem C105_default_names : forall l, Forall no_name l -> forall t u, In t (snd (naming_run l)) -> In u (snd (naming_run l)) ->
  (str_obstacle t = str_obstacle u <-> t_id t = t_id u).
Proof.
  assert (Nf : forall n i, n = None \/ n = Some ""%string -> name_for n i = str_id i) by (intros n i [->| ->]; reflexivity).
  assert (Cr : forall counter c a n, n = None \/ n = Some ""%string -> let r := snd (create counter c a n) in t_name r = str_id (t_id r)).
  { intros counter c a n Hn. unfold create. destruct (set_id counter a). cbn. apply Nf, Hn. }
  assert (Cp : forall counter t a n, n = None \/ n = Some ""%string -> t_name t = str_id (t_id t) -> let r := snd (copy_tag counter t a n) in t_name r = str_id (t_id r)).
  { intros counter t a n Hn Ht. unfold copy_tag. destruct (t_class t), a as [|a]; try (apply Cr, Hn); exact Ht. }
  assert (K : forall l, Forall no_name l -> Forall (fun t => t_name t = str_id (t_id t)) (snd (naming_run l))).
  { induction l as [|o l IH] using rev_ind; intros F; [constructor|]. apply Forall_app in F as [F1 F2]. inversion_clear F2 as [|? ? F3 _]. specialize (IH F1). rewrite run_last. destruct (naming_run l) as [c ts]. cbn [snd] in *.
    assert (Add : forall r : Z * tag, t_name (snd r) = str_id (t_id (snd r)) -> Forall (fun t => t_name t = str_id (t_id t)) (ts ++ [snd r])) by (intros r H; apply Forall_app; split; [exact IH|constructor; [exact H|constructor]]).
    assert (Nth : forall k t, nth_error ts k = Some t -> t_name t = str_id (t_id t)) by (intros k t E; rewrite Forall_forall in IH; apply IH; eapply nth_error_In, E).
    destruct o as [cl a n|k a n|k a n]; cbn [naming_step no_name] in *.
    - apply Add, Cr, F3.
    - destruct (nth_error ts k) as [t|] eqn:E; [|exact IH]. apply Add, Cp; [exact F3|]. eapply Nth, E.
    - destruct (nth_error ts k) as [t|] eqn:E; [|exact IH]. unfold dilated_tag. destruct (t_class t); [apply Add, Cp; [exact F3|eapply Nth, E]..|exact IH]. }
  intros l F t u Ht Hu. specialize (K l F). rewrite Forall_forall in K. unfold str_obstacle. rewrite (K t Ht), (K u Hu). split; [apply str_id_inj|intros ->; reflexivity].
Qed.
Print Assumptions C105_default_names.
Example C105_example : let l := [Make CEllipse IdNew (Some "goal"%string); Make CPolygon IdNew None; Make CPolygon IdTemporary None; Copy 1 (Id IdNew) (Some "wall"%string); Dilate 0 None None] in
  map str_obstacle (snd (naming_run l)) = ["goal"; "2"; "None"; "wall"; "4"]%string /\ map t_id (snd (naming_run l)) = [Some 1; Some 2; None; Some 3; Some 4] /\
  Forall no_name [Make CEllipse IdNew None; Copy 0 Duplicate (Some ""%string)] /\ is_name (Some "goal"%string) "goal"%string.
Proof. cbn. repeat split; auto; try discriminate. constructor; [left; reflexivity|]. constructor; [right; reflexivity|constructor]. Qed.

(** C105: refuted for duplicates: a plain polygon's duplicate keeps its name although another is given, an ellipse's loses it although
    none is given, and an ellipse has no copy without both arguments *)
Theorem C105_duplicate_refuted : exists l p e n, In p (snd (naming_run l)) /\ In e (snd (naming_run l)) /\ n <> ""%string /\
  t_class p = CPolygon /\ t_class e = CEllipse /\
  str_obstacle (snd (copy_tag (fst (naming_run l)) p Duplicate (Some n))) <> n /\
  str_obstacle (snd (copy_tag (fst (naming_run l)) e Duplicate None)) <> str_obstacle e /\
  copy_call (fst (naming_run l)) e None None = Exn TypeErr /\ copy_call (fst (naming_run l)) p None None <> Exn TypeErr.
Proof.
  exists [Make CPolygon IdNew (Some "wall"%string); Make CEllipse IdNew (Some "tree"%string)], (Tag CPolygon (Some 1) "wall"), (Tag CEllipse (Some 2) "tree"), "door"%string.
  cbn. repeat split; auto; discriminate.
Qed.
Print Assumptions C105_duplicate_refuted.
