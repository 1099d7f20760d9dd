(** Property C134: Cone.intersection_same_apex and Cone.list_intersection of utils/cg.py in binary64 arithmetic, on a grid. *)
From Coq Require Import ZArith QArith Qreals Reals SpecFloat Bool Lia Lra List.
From Verif Require Import Num Spec L_Geom M_Cg L_Cg M_Hull M_Float S_Float L_Float L_FloatCmp L_FloatCg L_FloatGrid P_Float P_Cone.
Import ListNotations.
Local Open Scope R_scope.

(** coordinates k 2^-s with |k| < 2^24, half of what [on_grid_pt] allows *)
Definition half_grid (s : Z) (x : b64) : Prop := bfin x /\ exists k : Z, (Z.abs k < 2 ^ 24)%Z /\ bval x = IZR k * p2 (- s).
Definition half_grid_pt (s : Z) (p : pt b64) : Prop := half_grid s (fst p) /\ half_grid s (snd p).
(** no two of the directions are parallel *)
Definition no_parallels (l : list Pt) : Prop := ForallOrdPairs (fun p q => cross p q <> 0) l.

Lemma half_full s p : half_grid_pt s p -> on_grid_pt s p.
Proof. intros ((F1 & k & K1 & E1) & (F2 & l & K2 & E2)). split; split; auto; [exists k|exists l]; split; auto; lia. Qed.
Lemma half_sum s x y : (0 <= s <= 1000)%Z -> half_grid s x -> half_grid s y -> on_grid s (SFadd 53 1024 x y) /\ bval (SFadd 53 1024 x y) = bval x + bval y.
Proof.
  intros Hs (Fx & k & Hk & Ek) (Fy & l & Hl & El). assert (E : bval x + bval y = IZR (k + l) * p2 (- s)) by (rewrite plus_IZR, Ek, El; ring).
  destruct (add_near x y Fx Fy) as (F & _ & X); [rewrite E; apply gr_small; lia|]. assert (V : bval (SFadd 53 1024 x y) = bval x + bval y) by (apply (X (k + l)%Z s); auto; lia).
  split; [|exact V]. split; [exact F|]. exists (k + l)%Z. split; [lia|congruence].
Qed.
Lemma half_padd s a d : (0 <= s <= 1000)%Z -> half_grid_pt s a -> half_grid_pt s d -> on_grid_pt s (padd a d) /\ bpt (padd a d) = padd (bpt a) (bpt d).
Proof.
  intros Hs (A1 & A2) (D1 & D2). unfold padd. cbn [nadd NumB]. destruct (half_sum s _ _ Hs A1 D1) as (G1 & V1). destruct (half_sum s _ _ Hs A2 D2) as (G2 & V2).
  split; [split; assumption|]. unfold bpt. cbn [fst snd]. f_equal; assumption.
Qed.
Lemma zero_half s : (0 <= s)%Z -> half_grid_pt s (n0, n0) /\ bpt (n0, n0) = ((n0, n0) : Pt).
Proof.
  intros Hs. assert (B : bval (@n0 b64 NumB) = 0) by reflexivity. assert (Hh : half_grid s n0) by (split; [exact I|]; exists 0%Z; rewrite B; split; [reflexivity|ring]). split; [split; assumption|].
  assert (E0 : (n0 : R) = 0) by (cbv [n0 nlit NumR]; unfold Q2R; cbn; lra). unfold bpt. cbn [fst snd]. rewrite B, E0. reflexivity.
Qed.
(** the cone with the values as coordinates *)
Definition bcone (c : cone b64) : cone R := MkCone (bpt (apex c)) (bpt (dir1 c)) (bpt (dir2 c)) (is_convex c).
(** a cone made by the constructor from grid points with this apex *)
Definition made (s : Z) (a : pt b64) (c : cone b64) : Prop := exists d1 d2, c = Cone a d1 d2 /\ half_grid_pt s d1 /\ half_grid_pt s d2.

Section Grid.
  Variables (s : Z) (a : pt b64).
  Hypotheses (Hs : (0 <= s <= 40)%Z) (Ga : half_grid_pt s a).
  Lemma cone_exact d1 d2 : half_grid_pt s d1 -> half_grid_pt s d2 -> bcone (Cone a d1 d2) = Cone (bpt a) (bpt d1) (bpt d2).
  Proof.
    intros G1 G2. unfold bcone, Cone. cbn [apex dir1 dir2 is_convex]. f_equal. destruct (zero_half s ltac:(lia)) as (Z1 & Z2).
    destruct (tests_grid s (n0, n0) d1 d2 Hs (half_full _ _ Z1) (half_full _ _ G1) (half_full _ _ G2)) as (-> & _). rewrite Z2. reflexivity.
  Qed.
  Lemma in_cone_exact c x : made s a c -> on_grid_pt s x -> point_in_cone c x = point_in_cone (bcone c) (bpt x).
  Proof.
    intros (d1 & d2 & -> & G1 & G2) Gx. rewrite cone_exact by assumption. assert (C : is_convex (Cone a d1 d2) = is_convex (Cone (bpt a) (bpt d1) (bpt d2))) by (rewrite <- cone_exact by assumption; reflexivity).
    unfold point_in_cone. rewrite C. cbn [apex dir1 dir2 Cone]. destruct (half_padd s a d1 ltac:(lia) Ga G1) as (P1 & E1). destruct (half_padd s a d2 ltac:(lia) Ga G2) as (P2 & E2). rewrite <- E1, <- E2.
    destruct (tests_grid s a (padd a d1) x Hs (half_full _ _ Ga) P1 Gx) as (-> & -> & _). destruct (tests_grid s a (padd a d2) x Hs (half_full _ _ Ga) P2 Gx) as (-> & -> & _). reflexivity.
  Qed.
  Lemma isect_exact c c' : made s a c -> made s a c' -> map bcone (intersection_same_apex c c') = intersection_same_apex (bcone c) (bcone c') /\ Forall (made s a) (intersection_same_apex c c').
  Proof.
    intros (d1 & d2 & -> & G1 & G2) (e1 & e2 & -> & H1 & H2).
    assert (PC : forall p q r, half_grid_pt s p -> half_grid_pt s q -> half_grid_pt s r -> point_in_cone (Cone a p q) (padd a r) = point_in_cone (Cone (bpt a) (bpt p) (bpt q)) (padd (bpt a) (bpt r))).
    { intros p q r Gp Gq Gr. destruct (half_padd s a r ltac:(lia) Ga Gr) as (P1 & <-). rewrite <- cone_exact by assumption. apply in_cone_exact; [exists p, q; auto|exact P1]. }
    rewrite !cone_exact by assumption. unfold intersection_same_apex. change (apex (Cone a d1 d2)) with a. change (apex (Cone a e1 e2)) with a. change (dir1 (Cone a d1 d2)) with d1. change (dir2 (Cone a d1 d2)) with d2.
    change (dir1 (Cone a e1 e2)) with e1. change (dir2 (Cone a e1 e2)) with e2. change (apex (Cone (bpt a) (bpt d1) (bpt d2))) with (bpt a). change (apex (Cone (bpt a) (bpt e1) (bpt e2))) with (bpt a).
    change (dir1 (Cone (bpt a) (bpt d1) (bpt d2))) with (bpt d1). change (dir2 (Cone (bpt a) (bpt d1) (bpt d2))) with (bpt d2). change (dir1 (Cone (bpt a) (bpt e1) (bpt e2))) with (bpt e1). change (dir2 (Cone (bpt a) (bpt e1) (bpt e2))) with (bpt e2).
    rewrite !PC by assumption.
    assert (K : forall p q, half_grid_pt s p -> half_grid_pt s q -> made s a (Cone a p q)) by (intros p q Gp Gq; exists p, q; auto).
    destruct (point_in_cone _ (padd (bpt a) (bpt e1))), (point_in_cone _ (padd (bpt a) (bpt e2))), (point_in_cone _ (padd (bpt a) (bpt d1))); cbn [andb map]; rewrite ?cone_exact by assumption; (split; [reflexivity|]); repeat constructor; auto.
  Qed.
  Lemma fold_exact : forall cs l, Forall (made s a) l -> Forall (made s a) cs ->
    option_map (map bcone) (list_intersection_loop l cs) = list_intersection_loop (map bcone l) (map bcone cs) /\ forall r, list_intersection_loop l cs = Some r -> Forall (made s a) r.
  Proof.
    induction cs as [|c cs IH]; intros l Fl Fc; cbn [list_intersection_loop map]; [split; [reflexivity|]; intros r E; injection E as <-; exact Fl|]. inversion_clear Fc as [|? ? Mc Fc'].
    assert (E : map bcone (flat_map (fun ci => intersection_same_apex ci c) l) = flat_map (fun ci => intersection_same_apex ci (bcone c)) (map bcone l) /\ Forall (made s a) (flat_map (fun ci => intersection_same_apex ci c) l)).
    { clear IH. induction Fl as [|ci l Mi Fl IH]; cbn [flat_map map]; [split; [reflexivity|constructor]|]. destruct (isect_exact ci c Mi Mc) as (E1 & F1). destruct IH as (E2 & F2). rewrite map_app, E1, E2. split; [reflexivity|]. apply Forall_app. auto. }
    destruct E as (E & F). rewrite <- E. destruct (flat_map _ l) as [|n1 nr]; cbn [map]; [split; [reflexivity|discriminate]|]. apply (IH (n1 :: nr) F Fc').
  Qed.
End Grid.

(** on the grid the answers are those of exact arithmetic *)
Theorem C134_exact : forall s a, (0 <= s <= 40)%Z -> half_grid_pt s a ->
  (forall d1 d2 x, half_grid_pt s d1 -> half_grid_pt s d2 -> on_grid_pt s x -> point_in_cone (Cone a d1 d2) x = point_in_cone (Cone (bpt a) (bpt d1) (bpt d2)) (bpt x)) /\
  (forall d1 d2 e1 e2, half_grid_pt s d1 -> half_grid_pt s d2 -> half_grid_pt s e1 -> half_grid_pt s e2 ->
     map bcone (intersection_same_apex (Cone a d1 d2) (Cone a e1 e2)) = intersection_same_apex (Cone (bpt a) (bpt d1) (bpt d2)) (Cone (bpt a) (bpt e1) (bpt e2))).
Proof.
  intros s a Hs Ga. split.
  - intros d1 d2 x G1 G2 Gx. rewrite <- (cone_exact s a Hs d1 d2) by assumption. apply (in_cone_exact s a Hs Ga); [exists d1, d2; auto|exact Gx].
  - intros d1 d2 e1 e2 G1 G2 H1 H2. rewrite <- (cone_exact s a Hs d1 d2), <- (cone_exact s a Hs e1 e2) by assumption. apply (isect_exact s a Hs Ga); [exists d1, d2|exists e1, e2]; auto.
Qed.
Print Assumptions C134_exact.

(** *** what the intersection contains *)
Lemma cross_grid s p q : (0 <= s <= 16)%Z -> (exists k, fst p = IZR k * p2 (- s)) -> (exists k, snd p = IZR k * p2 (- s)) -> (exists k, fst q = IZR k * p2 (- s)) -> (exists k, snd q = IZR k * p2 (- s)) ->
  cross p q <> 0 -> apart p q.
Proof.
  intros Hs (k1 & E1) (k2 & E2) (l1 & E3) (l2 & E4) N. unfold apart. unfold cross in *. rewrite E1, E2, E3, E4 in *.
  assert (E : IZR k1 * p2 (- s) * (IZR l2 * p2 (- s)) - IZR k2 * p2 (- s) * (IZR l1 * p2 (- s)) = IZR (k1 * l2 - k2 * l1) * (p2 (- s) * p2 (- s))) by (rewrite minus_IZR, !mult_IZR; ring). rewrite E in *.
  assert (Nz : (k1 * l2 - k2 * l1 <> 0)%Z) by (intros Hz; apply N; rewrite Hz; ring). assert (P : p2 (- (32)) <= p2 (- s) * p2 (- s)) by (rewrite <- p2_add; apply p2_le; lia). rewrite p2_inv, (p2_Z 32) in P by lia. change (2 ^ 32)%Z with 4294967296%Z in P.
  rewrite Rabs_mult, <- abs_IZR, (Rabs_pos_eq (p2 (- s) * p2 (- s))) by lra. assert (1 <= IZR (Z.abs (k1 * l2 - k2 * l1))) by (apply IZR_le; lia).
  assert (p2 (- s) * p2 (- s) <= IZR (Z.abs (k1 * l2 - k2 * l1)) * (p2 (- s) * p2 (- s))) by (rewrite <- (Rmult_1_l (p2 (- s) * p2 (- s))) at 1; apply Rmult_le_compat_r; lra). unfold TH. lra.
Qed.
Definition multiple (s : Z) (p : Pt) : Prop := (exists k, fst p = IZR k * p2 (- s)) /\ exists k, snd p = IZR k * p2 (- s).
Lemma general_grid s l : (0 <= s <= 16)%Z -> Forall (multiple s) l -> no_parallels l -> general_directions l.
Proof.
  intros Hs F N. induction N as [|p l Hp N IH]; [constructor|]. inversion_clear F as [|? ? (M1 & M2) F']. constructor; [|apply IH, F'].
  rewrite Forall_forall in *. intros q Hq. destruct (F' q Hq) as (M3 & M4). apply (cross_grid s); auto.
Qed.
Lemma grid_multiple s p : on_grid_pt s p -> multiple s (bpt p).
Proof. intros ((_ & k & _ & E1) & (_ & l & _ & E2)). split; [exists k|exists l]; assumption. Qed.
Lemma vsub_multiple s p q : multiple s p -> multiple s q -> multiple s (vsub p q).
Proof. intros ((k1 & E1) & (k2 & E2)) ((l1 & E3) & (l2 & E4)). split; [exists (k1 - l1)%Z|exists (k2 - l2)%Z]; unfold vsub; cbn [fst snd]; rewrite minus_IZR, ?E1, ?E2, ?E3, ?E4; ring. Qed.

(** C134: for cones with one apex and directions on the grid, no two of them parallel and none to the point, the cones answered for a list of cones contain a point just when all cones
    of the list do; everything is computed in binary64 *)
Theorem C134_list_intersection : forall s a x (ds : list (pt b64 * pt b64)), (0 <= s <= 16)%Z -> half_grid_pt s a -> on_grid_pt s x -> ds <> [] ->
  (forall d, In d ds -> half_grid_pt s (fst d) /\ half_grid_pt s (snd d)) ->
  no_parallels (flat_map (fun d => [bpt (fst d); bpt (snd d)]) ds ++ [vsub (bpt x) (bpt a)]) ->
  let cones := map (fun d => Cone a (fst d) (snd d)) ds in
  match list_intersection cones with
  | IndexError => False
  | EmptyPolygon => ~ (forall c, In c cones -> point_in_cone c x = true)
  | UnionOf l => l <> [] /\ ((exists c, In c l /\ point_in_cone c x = true) <-> (forall c, In c cones -> point_in_cone c x = true))
  end.
Proof.
  intros s a x ds Hs Ga Gx NE GD NP cones. assert (Hs' : (0 <= s <= 40)%Z) by lia. set (ds' := map (fun d => (bpt (fst d), bpt (snd d))) ds).
  assert (Md : Forall (made s a) cones). { apply Forall_forall. intros c Hc. apply in_map_iff in Hc as (d & <- & Hd). destruct (GD d Hd). exists (fst d), (snd d). auto. }
  assert (Ec : map bcone cones = map (fun d => Cone (bpt a) (fst d) (snd d)) ds').
  { unfold cones, ds'. rewrite !map_map. apply map_ext_in. intros d Hd. cbn [fst snd]. destruct (GD d Hd). apply (cone_exact s a Hs'); assumption. }
  assert (EP : forall c, In c cones -> point_in_cone c x = point_in_cone (bcone c) (bpt x)) by (intros c Hc; rewrite Forall_forall in Md; apply (in_cone_exact s a Hs' Ga); auto).
  assert (All : (forall c, In c cones -> point_in_cone c x = true) <-> forall c, In c (map bcone cones) -> point_in_cone c (bpt x) = true).
  { split; intros H c Hc; [apply in_map_iff in Hc as (c' & <- & Hc); rewrite <- EP by exact Hc; auto|rewrite EP by exact Hc; apply H, in_map, Hc]. }
  assert (G17 := C17_list_intersection (bpt a) (bpt x) ds'). cbv zeta in G17. rewrite <- Ec in G17.
  assert (G : match list_intersection (map bcone cones) with IndexError => False | EmptyPolygon => ~ (forall c, In c (map bcone cones) -> point_in_cone c (bpt x) = true)
    | UnionOf l => l <> [] /\ ((exists c, In c l /\ point_in_cone c (bpt x) = true) <-> (forall c, In c (map bcone cones) -> point_in_cone c (bpt x) = true)) end).
  { apply G17; [intros E; apply NE; destruct ds; [reflexivity|discriminate]|]. apply (general_grid s _ Hs).
    - apply Forall_app. split; [|constructor; [apply vsub_multiple; apply grid_multiple; [exact Gx|apply half_full, Ga]|constructor]]. apply Forall_forall. intros p Hp. apply in_flat_map in Hp as (d' & Hd' & Hp).
      apply in_map_iff in Hd' as (d & <- & Hd). destruct (GD d Hd) as (D1 & D2). cbn [fst snd] in Hp. destruct Hp as [<-|[<-|[]]]; apply grid_multiple, half_full; assumption.
    - assert (Ef : flat_map (fun d => [fst d; snd d]) ds' = flat_map (fun d => [bpt (fst d); bpt (snd d)]) ds). { unfold ds'. clear. induction ds as [|d ds IH]; cbn; [reflexivity|]. rewrite IH. reflexivity. } rewrite Ef. exact NP. }
  clear G17 EP. destruct cones as [|c cs] eqn:Ecs; [destruct ds; [congruence|discriminate]|]. cbn [list_intersection map] in G |- *. inversion_clear Md as [|? ? Mc Mcs].
  destruct (fold_exact s a Hs' Ga cs [c] ltac:(constructor; [exact Mc|constructor]) Mcs) as (E & F). cbn [map] in E. rewrite <- E in G. destruct (list_intersection_loop [c] cs) as [l|]; cbn [option_map] in G; [|intros HA; apply G, All, HA].
  specialize (F l eq_refl). destruct G as (Nl & G). split; [intros ->; apply Nl; reflexivity|]. rewrite All, <- G. rewrite Forall_forall in F. split; intros (c' & Hc & Hx).
  - exists (bcone c'). split; [apply in_map, Hc|]. rewrite <- (in_cone_exact s a Hs' Ga) by auto. exact Hx.
  - apply in_map_iff in Hc as (c1 & <- & Hc). exists c1. split; [exact Hc|]. rewrite (in_cone_exact s a Hs' Ga) by auto. exact Hx.
Qed.
Print Assumptions C134_list_intersection.
(** *** three cones at (1, 1); the third is not convex *)
Definition grid_cone_pt (x y : Z) : pt b64 := (binary_normalize 53 1024 x 0 false, binary_normalize 53 1024 y 0 false).
Lemma half_int x y : (Z.abs x < 2 ^ 24)%Z -> (Z.abs y < 2 ^ 24)%Z -> half_grid_pt 0 (grid_cone_pt x y) /\ bpt (grid_cone_pt x y) = (IZR x, IZR y).
Proof.
  intros Hx Hy. assert (K : forall z, (Z.abs z < 2 ^ 24)%Z -> bfin (binary_normalize 53 1024 z 0 false) /\ bval (binary_normalize 53 1024 z 0 false) = IZR z * p2 (- 0)).
  { intros z Hz. destruct (normalize_near z 0 false) as (F & _ & X); [apply (gr_small 0); lia|]. split; [exact F|]. apply (X z 0%Z); auto; lia. }
  destruct (K x Hx) as (F1 & V1). destruct (K y Hy) as (F2 & V2). split; [split; (split; [assumption|]); [exists x|exists y]; auto|]. unfold bpt, grid_cone_pt. cbn [fst snd]. rewrite V1, V2. change (- 0)%Z with 0%Z. rewrite p2_Z by lia. change (2 ^ 0)%Z with 1%Z. f_equal; ring.
Qed.
Example C134_example : let g := grid_cone_pt in let a := g 1%Z 1%Z in let x := g 4%Z 5%Z in
  let ds := [(g 1%Z 0%Z, g 0%Z 1%Z); (g 2%Z 1%Z, g (-1)%Z 2%Z); (g (-1)%Z (-3)%Z, g (-3)%Z (-1)%Z)] in
  half_grid_pt 0 a /\ on_grid_pt 0 x /\ (forall d, In d ds -> half_grid_pt 0 (fst d) /\ half_grid_pt 0 (snd d)) /\
  no_parallels (flat_map (fun d => [bpt (fst d); bpt (snd d)]) ds ++ [vsub (bpt x) (bpt a)]) /\
  list_intersection (map (fun d => Cone a (fst d) (snd d)) ds) = UnionOf [Cone a (g 2%Z 1%Z) (g 0%Z 1%Z)] /\ point_in_cone (Cone a (g 2%Z 1%Z) (g 0%Z 1%Z)) x = true.
Proof.
  cbv zeta. split; [apply half_int; reflexivity|]. split; [apply half_full, half_int; reflexivity|].
  split; [intros d [<-|[<-|[<-|[]]]]; split; cbn [fst snd]; apply half_int; reflexivity|]. split; [|split; vm_compute; reflexivity].
  cbn [flat_map fst snd app]. rewrite !(fun x y Hx Hy => proj2 (half_int x y Hx Hy)) by reflexivity. unfold vsub. cbn [fst snd].
  unfold no_parallels. repeat (constructor; [repeat (apply Forall_cons; [unfold cross; cbn [fst snd]; lra|]); apply Forall_nil|]). constructor.
Qed.
