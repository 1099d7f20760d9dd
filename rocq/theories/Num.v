(** Numbers.  The code computes with Python/numpy floats.  The model reads every arithmetic
    expression exactly: over the reals (instance [NumR], used by the universal theorems) or over the
    rationals (instance [NumQ], executable with [vm_compute], used for witnesses).  Rounding, overflow
    and NaN are not modelled except in M_Float (binary64, the properties about binary64); divisions that the code may perform by zero are guarded explicitly at
    the place where they occur. *)
From Coq Require Import QArith Qreals Reals Lra Bool List ZArith.
Import ListNotations.

Class Num (T : Type) : Type := MkNum {
  nadd : T -> T -> T;
  nsub : T -> T -> T;
  nmul : T -> T -> T;
  ndiv : T -> T -> T;
  nopp : T -> T;
  nabs : T -> T;
  nltb : T -> T -> bool;
  nleb : T -> T -> bool;
  neqb : T -> T -> bool;
  nlit : Q -> T }.

(** Boolean comparisons on the reals. *)
Definition Rltb (x y : R) : bool := if Rlt_dec x y then true else false.
Definition Rleb (x y : R) : bool := if Rle_dec x y then true else false.
Definition Reqb (x y : R) : bool := if Req_EM_T x y then true else false.

Global Instance NumR : Num R := {|
  nadd := Rplus; nsub := Rminus; nmul := Rmult; ndiv := Rdiv; nopp := Ropp; nabs := Rabs;
  nltb := Rltb; nleb := Rleb; neqb := Reqb; nlit := Q2R |}.

Global Instance NumQ : Num Q | 10 := {|
  nadd := fun x y => Qred (x + y); nsub := fun x y => Qred (x - y);
  nmul := fun x y => Qred (x * y); ndiv := fun x y => Qred (x / y);
  nopp := fun x => Qred (- x);
  nabs := fun x => if Qle_bool 0 x then x else Qred (- x);
  nltb := fun x y => negb (Qle_bool y x); nleb := Qle_bool; neqb := Qeq_bool; nlit := fun q => q |}.

Declare Scope num_scope.
Delimit Scope num_scope with num.
Notation "x + y" := (nadd x y) : num_scope.
Notation "x - y" := (nsub x y) : num_scope.
Notation "x * y" := (nmul x y) : num_scope.
Notation "x / y" := (ndiv x y) : num_scope.
Notation "- x" := (nopp x) : num_scope.
Notation "x <? y" := (nltb x y) : num_scope.
Notation "x <=? y" := (nleb x y) : num_scope.
Notation "x =? y" := (neqb x y) : num_scope.

(** A Python pair [x, y] / numpy row. *)
Definition pt (T : Type) : Type := (T * T)%type.

Section Consts.
  Context {T : Type} {N : Num T}.
  Definition n0 : T := nlit 0.
  Definition n1 : T := nlit 1.
  Definition nsq (x : T) : T := nmul x x.
End Consts.

(** *** Facts about the boolean comparisons over R *)
Open Scope R_scope.

Lemma Rltb_spec x y : BoolSpec (x < y) (y <= x) (Rltb x y).
Proof. unfold Rltb; destruct (Rlt_dec x y); constructor; lra. Qed.
Lemma Rleb_spec x y : BoolSpec (x <= y) (y < x) (Rleb x y).
Proof. unfold Rleb; destruct (Rle_dec x y); constructor; lra. Qed.
Lemma Reqb_spec x y : BoolSpec (x = y) (x <> y) (Reqb x y).
Proof. unfold Reqb; destruct (Req_EM_T x y); constructor; assumption. Qed.

Lemma Rltb_true x y : Rltb x y = true <-> x < y.
Proof. destruct (Rltb_spec x y); split; intros; try lra; congruence. Qed.
Lemma Rltb_false x y : Rltb x y = false <-> y <= x.
Proof. destruct (Rltb_spec x y); split; intros; try lra; congruence. Qed.
Lemma Rleb_true x y : Rleb x y = true <-> x <= y.
Proof. destruct (Rleb_spec x y); split; intros; try lra; congruence. Qed.
Lemma Rleb_false x y : Rleb x y = false <-> y < x.
Proof. destruct (Rleb_spec x y); split; intros; try lra; congruence. Qed.
Lemma Reqb_true x y : Reqb x y = true <-> x = y.
Proof. destruct (Reqb_spec x y); split; intros; try congruence. Qed.
Lemma Reqb_false x y : Reqb x y = false <-> x <> y.
Proof. destruct (Reqb_spec x y); split; intros; try congruence; exfalso; auto. Qed.

Lemma Q2R_pos_lit (n d : positive) : Q2R (Zpos n # d) = IZR (Zpos n) / IZR (Zpos d).
Proof. reflexivity. Qed.

(** Unfold the numeric class at [R]. *)
Ltac nR := cbn [nadd nsub nmul ndiv nopp nabs nltb nleb neqb nlit NumR] in *.

(** *** Transfer between the two instances *)
Lemma transfer_add (x y : Q) : Q2R (nadd x y) = (Q2R x + Q2R y)%R.
Proof. cbn [nadd nsub nmul ndiv nopp NumQ]. rewrite (Qeq_eqR _ _ (Qred_correct _)). apply Q2R_plus. Qed.
Lemma transfer_sub (x y : Q) : Q2R (nsub x y) = (Q2R x - Q2R y)%R.
Proof. cbn [nadd nsub nmul ndiv nopp NumQ]. rewrite (Qeq_eqR _ _ (Qred_correct _)). apply Q2R_minus. Qed.
Lemma transfer_mul (x y : Q) : Q2R (nmul x y) = (Q2R x * Q2R y)%R.
Proof. cbn [nadd nsub nmul ndiv nopp NumQ]. rewrite (Qeq_eqR _ _ (Qred_correct _)). apply Q2R_mult. Qed.
Lemma transfer_opp (x : Q) : Q2R (nopp x) = (- Q2R x)%R.
Proof. cbn [nadd nsub nmul ndiv nopp NumQ]. rewrite (Qeq_eqR _ _ (Qred_correct _)). apply Q2R_opp. Qed.
Lemma Q2R_0 : Q2R 0 = 0.
Proof. unfold Q2R; simpl; lra. Qed.
Lemma Q2R_1 : Q2R 1 = 1.
Proof. unfold Q2R; simpl; lra. Qed.
Lemma transfer_div (x y : Q) : ~ (y == 0)%Q -> Q2R (ndiv x y) = (Q2R x / Q2R y)%R.
Proof. intros H. cbn [ndiv NumQ]. rewrite (Qeq_eqR _ _ (Qred_correct _)). apply Q2R_div, H. Qed.
Lemma transfer_abs (x : Q) : Q2R (nabs x) = Rabs (Q2R x).
Proof.
  cbn [nabs NumQ]. destruct (Qle_bool 0 x) eqn:E.
  - apply Qle_bool_iff in E. apply Qle_Rle in E. rewrite Q2R_0 in E. rewrite Rabs_pos_eq; auto.
  - assert (H : (x < 0)%Q).
    { apply Qnot_le_lt. intro H. apply Qle_bool_iff in H. congruence. }
    apply Qlt_Rlt in H. rewrite Q2R_0 in H. rewrite (Qeq_eqR _ _ (Qred_correct _)), Q2R_opp.
    rewrite Rabs_left; auto.
Qed.
Lemma transfer_leb (x y : Q) : nleb (Num := NumQ) x y = nleb (Num := NumR) (Q2R x) (Q2R y).
Proof.
  cbn [nleb NumQ NumR]. destruct (Rleb_spec (Q2R x) (Q2R y)) as [H|H].
  - apply Qle_bool_iff. apply Rle_Qle, H.
  - destruct (Qle_bool x y) eqn:E; [|reflexivity].
    apply Qle_bool_iff, Qle_Rle in E. lra.
Qed.
Lemma transfer_ltb (x y : Q) : nltb (Num := NumQ) x y = nltb (Num := NumR) (Q2R x) (Q2R y).
Proof.
  pose proof (transfer_leb y x) as H. cbn [nleb nltb NumQ NumR] in H |- *. rewrite H.
  destruct (Rleb_spec (Q2R y) (Q2R x)), (Rltb_spec (Q2R x) (Q2R y)); simpl; try reflexivity; lra.
Qed.
Lemma transfer_eqb (x y : Q) : neqb (Num := NumQ) x y = neqb (Num := NumR) (Q2R x) (Q2R y).
Proof.
  cbn [neqb NumQ NumR]. destruct (Reqb_spec (Q2R x) (Q2R y)) as [H|H].
  - apply Qeq_bool_iff. apply eqR_Qeq, H.
  - destruct (Qeq_bool x y) eqn:E; [|reflexivity].
    apply Qeq_bool_iff, Qeq_eqR in E. contradiction.
Qed.
