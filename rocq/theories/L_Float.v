(** Rounding errors of binary64 subtraction and multiplication *)
From Coq Require Import ZArith Reals Lra Lia Psatz SpecFloat Bool.
From Verif Require Import Num M_Float S_Float.
Local Open Scope R_scope.

(** *** powers of two *)
Lemma p2_pos e : 0 < p2 e.
Proof. apply powerRZ_lt. lra. Qed.
Lemma p2_add a b : p2 (a + b) = p2 a * p2 b.
Proof. apply powerRZ_add. discrR. Qed.
Lemma p2_0 : p2 0 = 1. Proof. reflexivity. Qed.
Lemma p2_1 : p2 1 = 2. Proof. unfold p2. simpl. ring. Qed.
Lemma p2_m1 : p2 (-1) = / 2. Proof. unfold p2. simpl. field. Qed.
Lemma p2_opp a : p2 a * p2 (- a) = 1.
Proof. rewrite <- p2_add. replace (a + - a)%Z with 0%Z by lia. reflexivity. Qed.
Lemma p2_Z n : (0 <= n)%Z -> p2 n = IZR (2 ^ n).
Proof.
  intros H. apply (natlike_ind (fun n => p2 n = IZR (2 ^ n))); [reflexivity| |auto].
  intros k Hk E. rewrite Z.pow_succ_r by auto. unfold Z.succ. rewrite p2_add, E, mult_IZR, p2_1. ring.
Qed.
Lemma p2_lt a b : (a < b)%Z -> p2 a < p2 b.
Proof.
  intros H. replace b with (a + (b - a))%Z by lia. rewrite p2_add. pose proof (p2_pos a).
  assert (1 < p2 (b - a)). { rewrite p2_Z by lia. apply IZR_lt. apply Z.pow_gt_1; lia. } nra.
Qed.
Lemma p2_le a b : (a <= b)%Z -> p2 a <= p2 b.
Proof. intros H. destruct (Z.eq_dec a b) as [->|N]; [lra|]. left. apply p2_lt. lia. Qed.
Lemma p2_lt_inv a b : p2 a < p2 b -> (a < b)%Z.
Proof. intros H. destruct (Z_lt_le_dec a b); auto. apply p2_le in l. lra. Qed.

(** *** digits *)
Lemma digits_spec m : p2 (Zpos (digits2_pos m) - 1) <= IZR (Zpos m) < p2 (Zpos (digits2_pos m)).
Proof.
  induction m as [m IH|m IH|]; cbn [digits2_pos].
  - rewrite Pos2Z.inj_succ. replace (Z.succ (Zpos (digits2_pos m)) - 1)%Z with ((Zpos (digits2_pos m) - 1) + 1)%Z by lia.
    unfold Z.succ. rewrite (p2_add _ 1), (p2_add _ 1), p2_1. rewrite (Pos2Z.inj_xI m), plus_IZR, mult_IZR.
    assert (IZR (Zpos m) + 1 <= p2 (Zpos (digits2_pos m))). { rewrite p2_Z by lia. rewrite <- plus_IZR. apply IZR_le. destruct IH as (_ & H). rewrite p2_Z in H by lia. apply lt_IZR in H. lia. } lra.
  - rewrite Pos2Z.inj_succ. replace (Z.succ (Zpos (digits2_pos m)) - 1)%Z with ((Zpos (digits2_pos m) - 1) + 1)%Z by lia.
    unfold Z.succ. rewrite (p2_add _ 1), (p2_add _ 1), p2_1. rewrite (Pos2Z.inj_xO m), mult_IZR. lra.
  - change (p2 0 <= 1 < p2 1). rewrite p2_0, p2_1. lra.
Qed.
Lemma digits_unique m d : p2 (d - 1) <= IZR (Zpos m) < p2 d -> Zpos (digits2_pos m) = d.
Proof.
  intros (H1 & H2). destruct (digits_spec m) as (H3 & H4).
  assert (p2 (d - 1) < p2 (Zpos (digits2_pos m))) by lra. assert (p2 (Zpos (digits2_pos m) - 1) < p2 d) by lra. apply p2_lt_inv in H, H0. lia.
Qed.

(** *** shifting right: what the record of mantissa, round bit and sticky bit stands for *)
Definition stands (r : shr_record) (x : R) : Prop :=
  (0 <= shr_m r)%Z /\
  match shr_r r, shr_s r with
  | false, false => x = IZR (shr_m r)
  | false, true => IZR (shr_m r) < x < IZR (shr_m r) + 1 / 2
  | true, false => x = IZR (shr_m r) + 1 / 2
  | true, true => IZR (shr_m r) + 1 / 2 < x < IZR (shr_m r) + 1
  end.
Lemma stands_shr_1 r x : stands r x -> stands (shr_1 r) (x / 2).
Proof.
  destruct r as [m r s]. unfold stands. cbn [shr_m shr_r shr_s]. intros (H & E). destruct m as [|[p|p|]|p]; try lia; destruct r, s; cbn [shr_1 orb shr_m shr_r shr_s] in *; (split; [lia|]);
    rewrite ?(Pos2Z.inj_xI p), ?(Pos2Z.inj_xO p), ?plus_IZR, ?mult_IZR in E; lra.
Qed.
Lemma stands_iter n : forall r x, stands r x -> stands (iter_pos shr_1 n r) (x * p2 (- Zpos n)).
Proof.
  induction n as [n IH|n IH|]; intros r x H; cbn [iter_pos].
  - apply stands_shr_1 in H. apply IH, IH in H. replace (x * p2 (- Zpos n~1)) with (x / 2 * p2 (- Zpos n) * p2 (- Zpos n)); auto.
    rewrite (Pos2Z.inj_xI n). replace (- (2 * Zpos n + 1))%Z with (- Zpos n + - Zpos n + - (1))%Z by lia. rewrite !p2_add. change (- (1))%Z with (-1)%Z. rewrite p2_m1. lra.
  - apply IH, IH in H. replace (x * p2 (- Zpos n~0)) with (x * p2 (- Zpos n) * p2 (- Zpos n)); auto.
    rewrite (Pos2Z.inj_xO n). replace (- (2 * Zpos n))%Z with (- Zpos n + - Zpos n)%Z by lia. rewrite !p2_add. lra.
  - apply stands_shr_1 in H. change (- (1))%Z with (-1)%Z. rewrite p2_m1. exact H.
Qed.
Definition rne (r : shr_record) : Z := round_nearest_even (shr_m r) (loc_of_shr_record r).
Lemma rne_near r x : stands r x -> Rabs (IZR (rne r) - x) <= 1 / 2 /\ (0 <= rne r)%Z /\ (shr_m r <= rne r <= shr_m r + 1)%Z.
Proof.
  destruct r as [m r s]. unfold stands, rne. cbn [shr_m shr_r shr_s]. intros (H & E). destruct r, s; cbn [loc_of_shr_record round_nearest_even].
  - rewrite plus_IZR. split; [apply Rabs_le; lra|lia].
  - destruct (Z.even m); rewrite ?plus_IZR; (split; [apply Rabs_le; lra|lia]).
  - split; [apply Rabs_le; lra|lia].
  - split; [apply Rabs_le; lra|lia].
Qed.
Lemma rne_exact r (z : Z) : stands r (IZR z) -> rne r = z.
Proof.
  destruct r as [m r s]. unfold stands, rne. cbn [shr_m shr_r shr_s]. intros (H & E). destruct r, s; cbn [loc_of_shr_record round_nearest_even].
  - destruct E as (E1 & E2). assert (IZR m < IZR z) by lra. assert (IZR z < IZR (m + 1)) by (rewrite plus_IZR; lra). apply lt_IZR in H0, H1. lia.
  - assert (IZR m < IZR z) by lra. assert (IZR z < IZR (m + 1)) by (rewrite plus_IZR; lra). apply lt_IZR in H0, H1. lia.
  - destruct E as (E1 & E2). assert (IZR z < IZR (m + 1)) by (rewrite plus_IZR; lra). apply lt_IZR in E1, H0. lia.
  - apply eq_IZR in E. auto.
Qed.
Lemma rne_le r x (z : Z) : stands r x -> x <= IZR z -> (rne r <= z)%Z.
Proof.
  destruct r as [m r s]. unfold stands, rne. cbn [shr_m shr_r shr_s]. intros (H & E) L. 
  assert (G : IZR m < IZR z -> (m + 1 <= z)%Z). { intros G. apply lt_IZR in G. lia. }
  destruct r, s; cbn [loc_of_shr_record round_nearest_even].
  - apply G. lra. - assert (m + 1 <= z)%Z by (apply G; lra). destruct (Z.even m); lia. - assert (m + 1 <= z)%Z by (apply G; lra). lia. - apply le_IZR. lra.
Qed.

(** *** rounding *)
Notation fe := (fexp 53 1024).
Lemma fe_eq e : fe e = Z.max (e - 53) (-1074). Proof. reflexivity. Qed.
Lemma shr_spec m e l d : (0 <= d)%Z -> shr (shr_record_of_loc m l) e d = (match d with Zpos p => iter_pos shr_1 p (shr_record_of_loc m l) | _ => shr_record_of_loc m l end, (e + d)%Z).
Proof. intros H. destruct d; try lia; cbn [shr]; f_equal; lia. Qed.

(** the result is the nearest multiple of 2^d, where d = fexp of the magnitude *)
Lemma zdigits_spec m : (0 <= m)%Z -> (0 <= Zdigits2 m)%Z /\ IZR m + 1 <= p2 (Zdigits2 m) /\ ((0 < m)%Z -> p2 (Zdigits2 m - 1) <= IZR m).
Proof.
  intros H. destruct m as [|p|p]; [|split; [cbn; lia|]|lia].
  - split; [cbn; lia|]. split; [cbn [Zdigits2]; rewrite p2_0; lra|lia].
  - cbn [Zdigits2 shr_record_of_loc]. destruct (digits_spec p) as (L & U). split; [|auto]. rewrite p2_Z in U |- * by lia. apply lt_IZR in U. rewrite <- plus_IZR. apply IZR_le. lia.
Qed.
Lemma round_gen s m e l x : (0 <= m)%Z -> stands (shr_record_of_loc m l) x -> (e <= fe (Zdigits2 m + e))%Z -> (Zdigits2 m + e <= 1000)%Z ->
  let d := fe (Zdigits2 m + e) in
  let r := binary_round_aux 53 1024 s m e l in
  bfin r /\ exists q, Rabs (IZR q - x * p2 (e - d)) <= 1 / 2 /\ (0 <= q)%Z /\ (forall z, x * p2 (e - d) = IZR z -> q = z) /\
    bval r = (if s then - (IZR q * p2 d) else IZR q * p2 d) /\ (forall z, x * p2 (e - d) <= IZR z -> (q <= z)%Z).
Proof.
  intros Hm S0 He Hd d r. subst r. destruct (zdigits_spec m Hm) as (DP & DU & DL). set (D := Zdigits2 m) in *. unfold binary_round_aux, shr_fexp. fold D. fold d. rewrite shr_spec by (unfold d; lia).
  set (rec := match (d - e)%Z with Zpos p => _ | _ => _ end).
  assert (S1 : stands rec (x * p2 (e - d))).
  { unfold rec. destruct (d - e)%Z eqn:E; [|replace (e - d)%Z with (- Zpos p)%Z by lia; apply stands_iter; auto|lia].
    replace (e - d)%Z with 0%Z by lia. rewrite p2_0, Rmult_1_r. auto. }
  fold (rne rec). destruct (rne_near rec _ S1) as (N1 & N2 & _). replace (e + (d - e))%Z with d by lia.
  assert (BX : IZR m <= x < IZR m + 1). { destruct S0 as (_ & S0). destruct l as [|[| |]]; cbn [shr_record_of_loc shr_m shr_r shr_s] in S0; lra. }
  assert (Hx' : x * p2 (e - d) < p2 53).
  { assert (D + e - 53 <= d)%Z by (unfold d; rewrite fe_eq; lia).
    apply Rlt_le_trans with (p2 D * p2 (e - d)); [apply Rmult_lt_compat_r; [apply p2_pos|lra]|]. rewrite <- p2_add. apply p2_le. lia. }
  assert (Q53 : (rne rec <= 2 ^ 53)%Z). { apply (rne_le rec _ _ S1). rewrite <- p2_Z by lia. lra. }
  assert (Dd : (-1074 <= d <= 947)%Z) by (unfold d; rewrite fe_eq; lia).
  assert (U : forall z, x * p2 (e - d) <= IZR z -> (rne rec <= z)%Z) by (intros z; apply rne_le; auto).
  assert (X : forall z, x * p2 (e - d) = IZR z -> rne rec = z). { intros z E. apply rne_exact. rewrite <- E. auto. }
  destruct (rne rec) as [|q|q] eqn:Eq; [|clear Eq|lia].
  - cbn [Zdigits2 shr_record_of_loc]. assert (G : (fe (0 + d) - d <= 0)%Z) by (rewrite fe_eq; lia).
    assert (Eshr : shr {| shr_m := 0; shr_r := false; shr_s := false |} d (fe (0 + d) - d) = ({| shr_m := 0; shr_r := false; shr_s := false |}, d)) by (unfold shr; destruct (fe (0 + d) - d)%Z; auto; lia).
    rewrite Eshr. cbn [shr_m]. split; [exact I|]. exists 0%Z. split; [auto|]. split; [lia|]. split; [auto|]. split; [cbn [bval]; destruct s; lra|auto].
  - cbn [Zdigits2 shr_record_of_loc]. destruct (Z.eq_dec (Zpos q) (2 ^ 53)) as [E53|N53].
    + assert (Eq : q = (4503599627370496 * 2)%positive) by (vm_compute in E53; injection E53 as ->; reflexivity).
      assert (Dg : Zpos (digits2_pos q) = 54%Z) by (rewrite Eq; reflexivity). rewrite Dg. replace (fe (54 + d) - d)%Z with 1%Z by (rewrite fe_eq; lia).
      cbn [shr iter_pos]. rewrite Eq. cbn [Pos.mul shr_1 orb shr_m]. change (shr_m (shr_1 {| shr_m := 9007199254740992; shr_r := false; shr_s := false |})) with 4503599627370496%Z.
      assert (Le : (d + 1 <=? 1024 - 53)%Z = true) by (apply Z.leb_le; lia). match goal with |- context [Z.leb ?a ?b] => replace (Z.leb a b) with true by (symmetry; apply Z.leb_le; lia) end. split.
      * unfold bfin, valid_binary, bounded, canonical_mantissa. change (Zpos (digits2_pos 4503599627370496)) with 53%Z. rewrite fe_eq. apply andb_true_intro. split; [apply Zeq_is_eq_bool; lia|auto].
      * exists (Zpos q). split; [auto|]. split; [lia|]. split; [auto|]. split; [|auto]. cbn [bval]. rewrite E53. rewrite p2_add, p2_1. change (2 ^ 53)%Z with 9007199254740992%Z. destruct s; lra.
    + assert (Lt : (Zpos q < 2 ^ 53)%Z) by lia.
      assert (Dq : (Zpos (digits2_pos q) <= 53)%Z). { destruct (digits_spec q) as (H & _). apply IZR_lt in Lt. rewrite <- p2_Z in Lt by lia. assert (p2 (Zpos (digits2_pos q) - 1) < p2 53) by lra. apply p2_lt_inv in H0. lia. }
      assert (G : (fe (Zpos (digits2_pos q) + d) - d <= 0)%Z) by (rewrite fe_eq; lia).
      assert (Eshr : shr {| shr_m := Zpos q; shr_r := false; shr_s := false |} d (fe (Zpos (digits2_pos q) + d) - d) = ({| shr_m := Zpos q; shr_r := false; shr_s := false |}, d)) by (unfold shr; destruct (fe (Zpos (digits2_pos q) + d) - d)%Z; auto; lia).
      rewrite Eshr. cbn [shr_m]. assert (Le : (d <=? 1024 - 53)%Z = true) by (apply Z.leb_le; lia). match goal with |- context [Z.leb ?a ?b] => replace (Z.leb a b) with true by (symmetry; apply Z.leb_le; lia) end. split.
      * (* canonical *) unfold bfin, valid_binary, bounded, canonical_mantissa. apply andb_true_intro. split; [|auto]. apply Zeq_is_eq_bool. rewrite fe_eq.
        destruct (Z.eq_dec d (-1074)) as [->|ND]; [lia|]. assert (Zpos (digits2_pos q) = 53%Z); [|lia].
        assert (Ed : d = (D + e - 53)%Z) by (unfold d in *; rewrite fe_eq in *; lia). assert (M0 : (0 < m)%Z) by (destruct m; [cbn in D; subst D; lia|lia|lia]). specialize (DL M0).
        apply digits_unique. split; [|rewrite p2_Z by lia; apply IZR_lt; lia].
        assert (Lo : p2 52 <= x * p2 (e - d)). { replace (e - d)%Z with (53 - D)%Z by lia. apply Rle_trans with (p2 (D - 1) * p2 (53 - D)).
          - rewrite <- p2_add. apply p2_le. lia. - apply Rmult_le_compat_r; [left; apply p2_pos|lra]. }
        rewrite p2_Z in Lo |- * by lia. change (53 - 1)%Z with 52%Z. apply IZR_le.
        assert (IZR (2 ^ 52) - 1 / 2 <= IZR (Zpos q)). { unfold Rabs in N1. destruct (Rcase_abs _) in N1; lra. }
        assert (H1 : IZR (2 ^ 52 - 1) < IZR (Zpos q)). { rewrite minus_IZR. lra. } apply lt_IZR in H1. lia.
      * exists (Zpos q). split; [auto|]. split; [lia|]. split; [auto|]. split; [|auto]. cbn [bval]. destruct s; lra.
Qed.

(** *** r is X, correctly rounded up to the bounds used here *)
Definition near (r : b64) (X : R) : Prop :=
  bfin r /\ Rabs (bval r - X) <= p2 (-53) * Rabs X + p2 (-1075) /\
  forall (n : Z) (s : Z), (0 <= s <= 1000)%Z -> (Z.abs n < 2 ^ 53)%Z -> X = IZR n * p2 (- s) -> bval r = X.
Definition sgn (s : bool) (x : R) : R := if s then - x else x.
Lemma sgn_abs s x : Rabs (sgn s x) = Rabs x.
Proof. destruct s; cbn; [apply Rabs_Ropp|reflexivity]. Qed.
Lemma near_exact r X : bfin r -> bval r = X -> near r X.
Proof.
  intros F E. split; auto. split; [|auto]. rewrite E. replace (X - X) with 0 by ring. rewrite Rabs_R0. pose proof (p2_pos (-53)). pose proof (p2_pos (-1075)). pose proof (Rabs_pos X). nra.
Qed.
Lemma gen_near s m e l x : (0 <= m)%Z -> stands (shr_record_of_loc m l) x -> (e <= fe (Zdigits2 m + e))%Z -> (Zdigits2 m + e <= 1000)%Z ->
  near (binary_round_aux 53 1024 s m e l) (sgn s (x * p2 e)).
Proof.
  intros Hm S0 He Hd. destruct (zdigits_spec m Hm) as (DP & DU & DL). assert (BX : IZR m <= x < IZR m + 1). { destruct S0 as (_ & S0). destruct l as [|[| |]]; cbn [shr_record_of_loc shr_m shr_r shr_s] in S0; lra. }
  destruct (round_gen s m e l x Hm S0 He Hd) as (F & q & N & Q0 & X & V & _). set (d := fe (Zdigits2 m + e)) in *. set (D := Zdigits2 m) in *.
  assert (Ee : p2 e = p2 (e - d) * p2 d) by (rewrite <- p2_add; f_equal; lia). pose proof (p2_pos d) as Pd. pose proof (p2_pos e) as Pe.
  assert (M1 : 0 <= x) by (apply IZR_le in Hm; lra).
  split; auto. split.
  - rewrite V. replace ((if s then - (IZR q * p2 d) else IZR q * p2 d) - sgn s (x * p2 e)) with (sgn s ((IZR q - x * p2 (e - d)) * p2 d)) by (rewrite Ee; destruct s; cbn [sgn]; ring).
    rewrite !sgn_abs, !Rabs_mult, (Rabs_pos_eq (p2 d)), (Rabs_pos_eq (p2 e)), (Rabs_pos_eq (x)) by lra.
    apply Rle_trans with (1 / 2 * p2 d); [apply Rmult_le_compat_r; lra|]. replace (1 / 2 * p2 d) with (p2 (d + -1)) by (rewrite p2_add, p2_m1; lra).
    destruct (Z.eq_dec d (-1074)) as [->|ND].
    + change (-1074 + -1)%Z with (-1075)%Z. pose proof (p2_pos (-53)). assert (0 <= p2 (-53) * (x * p2 e)) by (repeat apply Rmult_le_pos; lra). lra.
    + assert (Ed : d = (D + e - 53)%Z) by (unfold d in *; rewrite fe_eq in *; lia). assert (M0 : (0 < m)%Z) by (destruct m; [cbn in D; subst D; lia|lia|lia]). specialize (DL M0). assert (Dg : p2 (D - 1) <= x) by lra.
      replace (d + -1)%Z with (-53 + ((D - 1) + e))%Z by lia. rewrite !p2_add. pose proof (p2_pos (-53)). pose proof (p2_pos (-1075)).
      assert (p2 (D - 1) * p2 e <= x * p2 e) by (apply Rmult_le_compat_r; lra). 
      assert (p2 (-53) * (p2 (D - 1) * p2 e) <= p2 (-53) * (x * p2 e)) by (apply Rmult_le_compat_l; lra). lra.
  - intros n sc Hs Hn E. rewrite V, E.
    assert (En : x * p2 e = IZR (Z.abs n) * p2 (- sc)).
    { pose proof (p2_pos (- sc)) as Ps. apply (f_equal Rabs) in E. rewrite sgn_abs, !Rabs_mult, (Rabs_pos_eq (p2 (- sc))), (Rabs_pos_eq (p2 e)), (Rabs_pos_eq (x)) in E by lra. rewrite abs_IZR. exact E. }
    assert (Ld : (d <= - sc)%Z).
    { destruct (Z.eq_dec m 0) as [E0|N0]; [assert (D0 : D = 0%Z) by (unfold D; rewrite E0; reflexivity); unfold d in *; rewrite fe_eq in *; lia|]. assert (Dg : p2 (D - 1) <= x) by (specialize (DL ltac:(lia)); lra). assert (L : p2 (D - 1 + e) < p2 (53 - sc)).
      { rewrite p2_add. apply Rle_lt_trans with (x * p2 e); [apply Rmult_le_compat_r; lra|]. rewrite En. replace (53 - sc)%Z with (53 + - sc)%Z by lia. rewrite p2_add. apply Rmult_lt_compat_r; [apply p2_pos|]. rewrite p2_Z by lia. apply IZR_lt; auto. }
      apply p2_lt_inv in L. unfold d. rewrite fe_eq. lia. }
    assert (Eq : q = (Z.abs n * 2 ^ (- sc - d))%Z).
    { apply X. rewrite mult_IZR, <- p2_Z by lia. replace (e - d)%Z with (e + - d)%Z by lia. rewrite p2_add, <- Rmult_assoc, En, Rmult_assoc, <- p2_add. reflexivity. }
    rewrite Eq, mult_IZR, <- p2_Z by lia. rewrite Rmult_assoc, <- p2_add. replace (- sc - d + d)%Z with (- sc)%Z by lia. rewrite <- En, <- E. reflexivity.
Qed.
Lemma aux_near s m e : (e <= fe (Zpos (digits2_pos m) + e))%Z -> (Zpos (digits2_pos m) + e <= 1000)%Z ->
  near (binary_round_aux 53 1024 s (Zpos m) e loc_Exact) (sgn s (IZR (Zpos m) * p2 e)).
Proof. intros He Hd. apply gen_near; auto; [lia|]. split; [cbn; lia|reflexivity]. Qed.
Lemma shl_val m e e' : (e' <= e)%Z -> IZR (Zpos (fst (shl_align m e e'))) * p2 e' = IZR (Zpos m) * p2 e /\ (e' < e -> snd (shl_align m e e') = e')%Z.
Proof.
  intros H. unfold shl_align. destruct (e' - e)%Z as [|p|p] eqn:E; [|lia|].
  - assert (e' = e) by lia. subst e'. cbn. split; [reflexivity|lia].
  - cbn [fst snd]. split; [|auto]. rewrite shift_pos_correct, mult_IZR. change (Z.pow_pos 2 p) with (2 ^ Zpos p)%Z. rewrite <- p2_Z by lia. replace e with (Zpos p + e')%Z at 1 by lia. rewrite p2_add. ring.
Qed.
Lemma round_near s m e : (Zpos (digits2_pos m) + e <= 1000)%Z -> near (binary_round 53 1024 s m e) (sgn s (IZR (Zpos m) * p2 e)).
Proof.
  intros Hd. unfold binary_round. set (d := fe (Zpos (digits2_pos m) + e)). destruct (Z_lt_le_dec d e) as [L|L].
  - destruct (shl_val m e d) as (E1 & E2); [lia|]. specialize (E2 L). destruct (shl_align m e d) as [mz ez]. cbn [fst snd] in *. subst ez. rewrite <- E1.
    assert (Dg : (Zpos (digits2_pos mz) + d = Zpos (digits2_pos m) + e)%Z).
    { assert (Zpos (digits2_pos mz) = Zpos (digits2_pos m) + (e - d))%Z; [|lia]. apply digits_unique. destruct (digits_spec m) as (D1 & D2).
      assert (Em : IZR (Zpos mz) = IZR (Zpos m) * p2 (e - d)). { pose proof (p2_pos d). apply Rmult_eq_reg_r with (p2 d); [|lra]. rewrite E1, Rmult_assoc, <- p2_add. do 2 f_equal. lia. }
      rewrite Em. replace (Zpos (digits2_pos m) + (e - d) - 1)%Z with ((Zpos (digits2_pos m) - 1) + (e - d))%Z by lia. rewrite !p2_add. pose proof (p2_pos (e - d)). split; [apply Rmult_le_compat_r; lra|apply Rmult_lt_compat_r; lra]. }
    apply aux_near; rewrite Dg; auto. fold d. lia.
  - unfold shl_align. destruct (d - e)%Z eqn:E; try lia; apply aux_near; auto.
Qed.
Lemma small_digits m e : IZR (Zpos m) * p2 e <= p2 900 -> (Zpos (digits2_pos m) + e <= 1000)%Z.
Proof.
  intros H. destruct (digits_spec m) as (D & _). assert (p2 (Zpos (digits2_pos m) - 1 + e) < p2 901).
  { rewrite p2_add. pose proof (p2_pos e). apply Rle_lt_trans with (p2 900); [|apply p2_lt; lia]. apply Rle_trans with (2 := H). apply Rmult_le_compat_r; lra. }
  apply p2_lt_inv in H0. lia.
Qed.
Lemma normalize_near m e b : Rabs (IZR m * p2 e) <= p2 900 -> near (binary_normalize 53 1024 m e b) (IZR m * p2 e).
Proof.
  intros H. pose proof (p2_pos e) as Pe. destruct m as [|p|p]; cbn [binary_normalize].
  - apply near_exact; [exact I|]. cbn. lra.
  - assert (P : 0 < IZR (Zpos p)) by (apply IZR_lt; lia). rewrite Rabs_pos_eq in H by nra. apply (round_near false). apply small_digits. auto.
  - assert (P : 0 < IZR (Zpos p)) by (apply IZR_lt; lia). change (Zneg p) with (- Zpos p)%Z in *. rewrite opp_IZR in *. replace (- IZR (Zpos p) * p2 e) with (- (IZR (Zpos p) * p2 e)) in * by ring. rewrite Rabs_Ropp, Rabs_pos_eq in H by nra.
    apply (round_near true). apply small_digits. auto.
Qed.

(** *** the operations *)
Lemma bval_finite s m e : bval (S754_finite s m e) = IZR (cond_Zopp s (Zpos m)) * p2 e.
Proof. destruct s; cbn [bval cond_Zopp]; rewrite ?opp_IZR; reflexivity. Qed.
Theorem sub_near x y : bfin x -> bfin y -> Rabs (bval x - bval y) <= p2 900 -> near (SFsub 53 1024 x y) (bval x - bval y).
Proof.
  intros Fx Fy H. destruct x as [sx|sx| |sx mx ex], y as [sy|sy| |sy my ey]; try (cbn in Fx, Fy; contradiction).
  - apply near_exact; [|]; cbn [SFsub]; destruct (eqb sx (negb sy)); cbn; auto; lra.
  - apply near_exact; cbn [SFsub]; [exact Fy|]. cbn [bval]. destruct sy; cbn; lra.
  - apply near_exact; cbn [SFsub]; [exact Fx|]. cbn [bval]. destruct sx; cbn; lra.
  - cbn [SFsub]. set (ez := Z.min ex ey). destruct (shl_val mx ex ez) as (E1 & _); [unfold ez; lia|]. destruct (shl_val my ey ez) as (E2 & _); [unfold ez; lia|].
    assert (E : bval (S754_finite sx mx ex) - bval (S754_finite sy my ey) = IZR (cond_Zopp sx (Zpos (fst (shl_align mx ex ez))) - cond_Zopp sy (Zpos (fst (shl_align my ey ez)))) * p2 ez).
    { rewrite minus_IZR. cbn [bval]. destruct sx, sy; cbn [cond_Zopp]; rewrite ?opp_IZR; lra. }
    rewrite E in *. apply normalize_near. auto.
Qed.
Lemma canonical_digits m e : bounded 53 1024 m e = true -> (-1074 <= e <= 971)%Z /\ (Zpos (digits2_pos m) <= 53)%Z /\ (Zpos (digits2_pos m) = 53%Z \/ e = (-1074)%Z).
Proof. unfold bounded, canonical_mantissa. rewrite fe_eq. intros H. apply andb_prop in H as (H1 & H2). apply Zeq_bool_eq in H1. apply Z.leb_le in H2. lia. Qed.
Theorem mul_near x y : bfin x -> bfin y -> Rabs (bval x * bval y) <= p2 900 -> near (SFmul 53 1024 x y) (bval x * bval y).
Proof.
  intros Fx Fy H. destruct x as [sx|sx| |sx mx ex], y as [sy|sy| |sy my ey]; try (cbn in Fx, Fy; contradiction).
  - apply near_exact; cbn; auto; lra. - apply near_exact; cbn; auto; lra. - apply near_exact; cbn; auto; lra.
  - cbn [SFmul]. cbn [bfin valid_binary] in Fx, Fy. apply canonical_digits in Fx as (Ex & Dx & Cx), Fy as (Ey & Dy & Cy).
    assert (E : bval (S754_finite sx mx ex) * bval (S754_finite sy my ey) = sgn (xorb sx sy) (IZR (Zpos (mx * my)) * p2 (ex + ey))).
    { rewrite Pos2Z.inj_mul, mult_IZR, p2_add. cbn [bval]. destruct sx, sy; cbn [xorb sgn]; ring. }
    rewrite E in *. rewrite sgn_abs in H. pose proof (p2_pos (ex + ey)). assert (0 < IZR (Zpos (mx * my))) by (apply IZR_lt; lia). rewrite Rabs_pos_eq in H by nra.
    apply aux_near; [|apply small_digits; auto]. rewrite fe_eq.
    destruct (digits_spec mx) as (Lx & Ux), (digits_spec my) as (Ly & Uy), (digits_spec (mx * my)) as (_ & U).
    assert (D : (Zpos (digits2_pos mx) + Zpos (digits2_pos my) - 1 <= Zpos (digits2_pos (mx * my)))%Z).
    { assert (p2 ((Zpos (digits2_pos mx) - 1) + (Zpos (digits2_pos my) - 1)) < p2 (Zpos (digits2_pos (mx * my)))); [|apply p2_lt_inv in H2; lia].
      apply Rle_lt_trans with (2 := U). rewrite p2_add, Pos2Z.inj_mul, mult_IZR. apply Rmult_le_compat; auto; left; apply p2_pos. }
    lia.
Qed.
