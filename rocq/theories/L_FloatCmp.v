(** Comparison, negation, absolute value and addition of binary64 numbers *)
From Coq Require Import ZArith QArith Reals SpecFloat Bool Lia Lra List.
From Verif Require Import Num M_Float S_Float L_Float.
Local Open Scope R_scope.

Lemma pos_lt m e m' e' : bounded 53 1024 m e = true -> bounded 53 1024 m' e' = true -> (e < e')%Z -> IZR (Zpos m) * p2 e < IZR (Zpos m') * p2 e'.
Proof.
  intros B B' L. apply canonical_digits in B as (E & D & C), B' as (E' & D' & C'). destruct (digits_spec m) as (_ & U), (digits_spec m') as (Lo & _).
  destruct C' as [C'|C']; [|lia]. pose proof (p2_pos e). pose proof (p2_pos e').
  apply Rlt_le_trans with (p2 (53 + e)); [|apply Rle_trans with (p2 (52 + e'))].
  - rewrite p2_add. apply Rmult_lt_compat_r; auto. apply Rlt_le_trans with (1 := U). apply p2_le. lia.
  - apply p2_le. lia.
  - rewrite p2_add. apply Rmult_le_compat_r; [lra|]. rewrite C' in Lo. exact Lo.
Qed.
Definition cmp_of (x y : R) (c : comparison) : Prop := match c with Lt => x < y | Eq => x = y | Gt => y < x end.
Lemma cmp_of_unique x y c : cmp_of x y c -> (c = Lt <-> x < y) /\ (c = Eq <-> x = y) /\ (c = Gt <-> y < x).
Proof. destruct c; cbn; intros H; repeat split; intros K; try discriminate; try lra; auto. Qed.
Lemma pos_cmp m e m' e' : bounded 53 1024 m e = true -> bounded 53 1024 m' e' = true ->
  cmp_of (IZR (Zpos m) * p2 e) (IZR (Zpos m') * p2 e') (match (e ?= e')%Z with Lt => Lt | Gt => Gt | Eq => Pcompare m m' Eq end).
Proof.
  intros B B'. destruct (Z.compare_spec e e') as [->|L|L].
  - pose proof (p2_pos e'). change (Pcompare m m' Eq) with (Pos.compare m m'). destruct (Pos.compare_spec m m') as [->|L|L]; cbn.
    + reflexivity.
    + apply Rmult_lt_compat_r; auto. apply IZR_lt. lia.
    + apply Rmult_lt_compat_r; auto. apply IZR_lt. lia.
  - cbn. apply pos_lt; auto.
  - cbn. apply pos_lt; auto.
Qed.
Lemma pos_val m e : 0 < IZR (Zpos m) * p2 e.
Proof. apply Rmult_lt_0_compat; [apply IZR_lt; lia|apply p2_pos]. Qed.
Theorem compare_spec x y : bfin x -> bfin y -> exists c, SFcompare x y = Some c /\ cmp_of (bval x) (bval y) c.
Proof.
  intros Fx Fy. destruct x as [sx|sx| |sx mx ex], y as [sy|sy| |sy my ey]; try (cbn in Fx, Fy; contradiction).
  - exists Eq. split; reflexivity.
  - pose proof (pos_val my ey). exists (if sy then Gt else Lt). destruct sy; split; try reflexivity; cbn [cmp_of bval]; lra.
  - pose proof (pos_val mx ex). exists (if sx then Lt else Gt). destruct sx; split; try reflexivity; cbn [cmp_of bval]; lra.
  - cbn [bfin valid_binary] in Fx, Fy. pose proof (pos_cmp mx ex my ey Fx Fy) as P. pose proof (pos_val mx ex). pose proof (pos_val my ey). unfold SFcompare. destruct sx, sy.
    + exists (CompOpp (match (ex ?= ey)%Z with Lt => Lt | Gt => Gt | Eq => Pcompare mx my Eq end)). split.
      * destruct (ex ?= ey)%Z; reflexivity.
      * cbn [bval]. destruct (match (ex ?= ey)%Z with Lt => Lt | Gt => Gt | Eq => Pcompare mx my Eq end); cbn [cmp_of CompOpp] in *; lra.
    + exists Lt. split; [reflexivity|]. cbn [cmp_of bval]. lra.
    + exists Gt. split; [reflexivity|]. cbn [cmp_of bval]. lra.
    + eexists. split; [|cbn [bval]; exact P]. destruct (ex ?= ey)%Z; reflexivity.
Qed.
Theorem ltb_spec x y : bfin x -> bfin y -> SFltb x y = Rltb (bval x) (bval y).
Proof.
  intros Fx Fy. unfold SFltb, Rltb. destruct (compare_spec x y Fx Fy) as (c & -> & C). apply cmp_of_unique in C as (A & _).
  destruct (Rlt_dec (bval x) (bval y)) as [L|L]; destruct c; auto; try (apply A in L; discriminate); destruct L; apply A; auto.
Qed.
Theorem eqb_spec x y : bfin x -> bfin y -> SFeqb x y = Reqb (bval x) (bval y).
Proof.
  intros Fx Fy. unfold SFeqb, Reqb. destruct (compare_spec x y Fx Fy) as (c & -> & C). apply cmp_of_unique in C as (_ & A & _).
  destruct (Req_EM_T (bval x) (bval y)) as [L|L]; destruct c; auto; try (apply A in L; discriminate); destruct L; apply A; auto.
Qed.
Theorem leb_spec x y : bfin x -> bfin y -> SFleb x y = Rleb (bval x) (bval y).
Proof.
  intros Fx Fy. unfold SFleb, Rleb. destruct (compare_spec x y Fx Fy) as (c & -> & C). apply cmp_of_unique in C as (A1 & A2 & A3).
  destruct (Rle_dec (bval x) (bval y)) as [L|L]; destruct c; auto.
  - assert (bval y < bval x) by (apply A3; auto). lra.
  - assert (bval x = bval y) by (apply A2; auto). lra.
  - assert (bval x < bval y) by (apply A1; auto). lra.
Qed.
Lemma opp_spec x : bfin x -> bfin (SFopp x) /\ bval (SFopp x) = - bval x.
Proof. destruct x as [s|s| |s m e]; cbn [SFopp bfin bval valid_binary]; intros F; try contradiction; split; auto; destruct s; cbn; lra. Qed.
Lemma abs_spec x : bfin x -> bfin (SFabs x) /\ bval (SFabs x) = Rabs (bval x).
Proof.
  destruct x as [s|s| |s m e]; cbn [SFabs bfin bval valid_binary]; intros F; try contradiction; split; auto.
  - rewrite Rabs_R0. reflexivity.
  - pose proof (pos_val m e). destruct s; rewrite Rabs_mult, ?Rabs_Ropp, (Rabs_pos_eq (p2 e)), Rabs_pos_eq; auto; try (left; apply p2_pos); apply IZR_le; lia.
Qed.
Theorem add_near x y : bfin x -> bfin y -> Rabs (bval x + bval y) <= p2 900 -> near (SFadd 53 1024 x y) (bval x + bval y).
Proof.
  intros Fx Fy H. destruct x as [sx|sx| |sx mx ex], y as [sy|sy| |sy my ey]; try (cbn in Fx, Fy; contradiction).
  - apply near_exact; [|]; cbn [SFadd]; destruct (eqb sx sy); cbn; auto; lra.
  - apply near_exact; cbn [SFadd]; [exact Fy|]. cbn [bval]. lra.
  - apply near_exact; cbn [SFadd]; [exact Fx|]. cbn [bval]. lra.
  - cbn [SFadd]. set (ez := Z.min ex ey). destruct (shl_val mx ex ez) as (E1 & _); [unfold ez; lia|]. destruct (shl_val my ey ez) as (E2 & _); [unfold ez; lia|].
    assert (E : bval (S754_finite sx mx ex) + bval (S754_finite sy my ey) = IZR (cond_Zopp sx (Zpos (fst (shl_align mx ex ez))) + cond_Zopp sy (Zpos (fst (shl_align my ey ez)))) * p2 ez).
    { rewrite plus_IZR. cbn [bval]. destruct sx, sy; cbn [cond_Zopp]; rewrite ?opp_IZR; lra. }
    rewrite E in *. apply normalize_near. auto.
Qed.
