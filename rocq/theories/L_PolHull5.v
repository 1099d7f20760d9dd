(** The vertex list that polygon_kernel_starshaped_hull builds when there is a single kernel point: one block for each
    visible vertex. *)
From Coq Require Import QArith Reals Lra Lia Psatz List Bool Arith ZArith.
From Verif Require Import Num Spec M_Cg M_Motion M_Obstacle M_PolHull S_PolHull S_HullOne L_Geom L_Cg L_PolHull L_PolHull2 L_PolHull3 L_Ring L_Ring2 L_Wind L_Lit L_Lit2 L_Order L_Order2 L_Lit3 L_Lit4 L_Lit5 L_Lit6 L_PolHull4.
Import ListNotations.
Open Scope R_scope.

(** the block of the visible vertex [v]; [inc] tells whether the kernel point is in the list already *)
Definition blk (V : list Pt) (A : region) (k : Pt) (inc inc' : bool) (v : Pt) (B : list Pt) : Prop :=
  (B = [v] /\ inc' = inc /\ (exists n, Un V v n /\ br k 1 v n < 0) /\ (exists n, Un V v n /\ 0 < br k 1 v n)) \/
  (exists u, foot A k v u /\ inc' = inc /\ ((all_side V k 1 v /\ B = [u; v]) \/ (all_side V k (-1) v /\ B = [v; u]))) \/
  (bare A k v /\ inc' = true /\ ((all_side V k 1 v /\ B = (if inc then [v] else [k; v])) \/ (all_side V k (-1) v /\ B = (if inc then [v] else [v; k])))).
(** the blocks of a part of the ring *)
Inductive run (V : list Pt) (A : region) (k : Pt) : bool -> list Pt -> list (Pt * list Pt) -> bool -> Prop :=
| run_nil i : run V A k i [] [] i
| run_skip i v vs bs i' : ~ lit A k v -> run V A k i vs bs i' -> run V A k i (v :: vs) bs i'
| run_lit i i1 i' v B vs bs : lit A k v -> blk V A k i i1 v B -> run V A k i1 vs bs i' -> run V A k i (v :: vs) ((v, B) :: bs) i'.

Lemma py_last2 {B} (l : list B) (a b : B) : py_get (l ++ [a; b]) (-1) = Ret b.
Proof. replace (l ++ [a; b]) with ((l ++ [a]) ++ [b]) by (rewrite <- app_assoc; auto). apply py_last. Qed.

Section Steps.
  Variables (V : list Pt) (A : region) (k : Pt) (W : pol_world R).
  Hypothesis Enc : encloses V A.
  Hypothesis F : faithful A [k] W.
  Hypothesis Ro : roomy V k.
  Hypothesis Pl : forall v, In v V -> plain (pw_meet W (line_seg (k : pt R) v)).
  Let GP := ro_gp V k Ro.
  Notation Ed := (Ed V).
  Notation Un := (Un V).
  Notation lit := (lit A k).
  Let s1 : 1 = 1 \/ 1 = -1 := or_introl eq_refl.
  Let s2 : -1 = 1 \/ -1 = -1 := or_intror eq_refl.

  Definition e_inv (done : list Pt) (s : aug_state R) : Prop :=
    (a_sv s = [] /\ a_e1 s = 0 /\ a_e2 s = 0)%Z \/ exists i1 i2 p q v0, a_e1 s = Z.of_nat i1 /\ a_e2 s = Z.of_nat i2 /\
      nth_error (a_sv s) i1 = Some p /\ nth_error (a_sv s) i2 = Some q /\ In v0 done /\ on_seg k v0 p /\ on_seg k v0 q.

  Lemma line_seg_inner v x : In v V -> seg_region (line_seg (k : pt R) v) x -> x <> k /\ x <> v.
  Proof.
    intros Hv Hx. assert (Nk : k <> v) by (apply not_eq_sym, (vertex_not_k V A k Enc GP); auto). apply seg_params in Hx as (t & Ht & ->). split; intros E.
    - assert (t = 0); [|lra]. apply (along_inj k v); auto. rewrite along_0. auto.
    - assert (t = 1); [|lra]. apply (along_inj k v); auto. rewrite along_1. auto.
  Qed.
  Lemma no_cross v p q v0 : In v V -> (p = v /\ q = v) \/ (In v0 V /\ v0 <> v /\ on_seg k v0 p /\ on_seg k v0 q) ->
    pw_cross W (line_seg (k : pt R) v) (line_seg p q) = XEmpty.
  Proof.
    intros Hv H. assert (N : forall x, ~ (seg_region (line_seg (k : pt R) v) x /\ seg_region (line_seg p q) x)).
    { intros x [X1 X2]. destruct (line_seg_inner v x Hv X1) as [Nk Nv]. apply line_seg_on in X2. destruct H as [[-> ->]|(H0 & N0 & Op & Oq)].
      - apply on_seg_same in X2. auto.
      - apply Nk. apply (two_rays k v v0 x); [apply GP; auto|apply line_seg_on; auto|].
        destruct Op as (tp & Htp & ->), Oq as (tq & Htq & ->), X2 as (t & Ht & ->). rewrite along_along'. exists (tp + t * (tq - tp)). split; [split; nra|auto]. }
    pose proof (f_cross _ _ _ F (line_seg (k : pt R) v) (line_seg p q)) as C. destruct (pw_cross W _ _) as [|c|a b]; auto; exfalso.
    - apply (N c). apply C. auto.
    - destruct C as [_ C]. apply (N a). apply C. apply on_seg_l.
  Qed.

  Lemma kind u v w : Ed u v -> Ed v w -> lit v ->
    (0 < area2 k u v /\ 0 < area2 k v w) \/ (all_side V k 1 v /\ 0 < area2 k v u) \/ (all_side V k (-1) v /\ area2 k v u < 0).
  Proof.
    intros Hu Hw Lv. assert (Hv : In v V) by apply (cyc_in _ _ _ Hu).
    assert (U1 : Un v w) by (left; auto). assert (U2 : Un v u) by (right; auto).
    destruct (Un_V V A k Enc GP 1 s1 v w U1) as (_ & _ & _ & N1). destruct (Un_V V A k Enc GP 1 s1 v u U2) as (_ & _ & _ & N2). rewrite br1 in *.
    assert (Two : forall n, Un v n -> n = w \/ n = u). { intros n [Hn|Hn]; [left; apply (ed_next V A k Enc GP v); auto|right; apply (ed_prev V A k Enc GP v); auto]. }
    destruct (Rlt_dec 0 (area2 k v u)) as [P2|P2]; destruct (Rlt_dec 0 (area2 k v w)) as [P1|P1].
    - right. left. split; auto. intros n Hn. rewrite br1. destruct (Two n Hn) as [-> | ->]; auto.
    - exfalso. destruct (near_lit V A k Enc GP 1 s1 v u U2 Lv) as (n & x & U & Bn & Ix & Lx & _). { rewrite br1. auto. } rewrite br1 in Bn.
      destruct (Two n U) as [-> | ->]; [lra|]. specialize (Lx 1 ltac:(lra)). rewrite along_1 in Lx.
      pose proof (lit_dir V A k Enc GP u v x Hu (in_seg_sym _ _ _ Ix) Lx) as D. rewrite area2_swap in D. lra.
    - left. split; auto. rewrite area2_swap. lra.
    - right. right. split; [|lra]. intros n Hn. rewrite br2, area2_swap. destruct (Two n Hn) as [-> | ->]; lra.
  Qed.
  Lemma ccw_foot c v u : Ed u v -> 0 <= c <= 999 / 1000 -> is_ccw (along k v c : pt R) v u = true <-> 0 < area2 k v u.
  Proof.
    intros Hu Hc. pose proof TH_pos as TP. pose proof (ro_area V k Ro u v Hu) as Ar. rewrite is_ccw_iff.
    replace (area2 (along k v c) v u) with ((1 - c) * area2 k v u) by (unv; ring). rewrite (area2_swap k v u), Rabs_Ropp in Ar.
    split; intros H.
    - nra.
    - rewrite Rabs_right in Ar by lra. nra.
  Qed.

  Lemma one_step (done : list Pt) (v u : pt R) s vb inc : In v V -> lit v -> Ed u v -> (forall v0, In v0 done -> In v0 V /\ v0 <> v) -> e_inv done s -> a_inc s = [inc] ->
    exists s' vb' B inc', vertex_step W [k] v u (s, vb) = Ret (s', vb') /\ a_sv s' = a_sv s ++ B /\ blk V A k inc inc' v B /\ a_inc s' = [inc'] /\ e_inv (v :: done) s'.
  Proof.
    intros Hv Lv Hu Hd I Ei. destruct (cyc_from V v Hv) as [w Hw].
    unfold vertex_step. rewrite (proj2 (visible_lit V A k W Enc F Ro v Hv) Lv). cbv zeta.
    assert (Ea : add_vertex W [k] v (a_sv s) = a_sv s ++ [v]) by reflexivity. rewrite Ea. clear Ea.
    assert (Adj : (match a_sv s ++ [v] with
            | [] => Ret (a_sv s ++ [v], false)
            | _ => bind (py_get (a_sv s ++ [v]) (a_e1 s)) (fun e1 => bind (py_get (a_sv s ++ [v]) (a_e2 s)) (fun e2 =>
                     adjust_loop W v e2 (line_seg e1 e2) (a_e1 s) [k] (a_sv s ++ [v]) false))
            end) = Ret (a_sv s ++ [v], false) /\ e_inv (v :: done) (AS (a_sv s ++ [v]) (a_e1 s) (a_e2 s) (a_inc s))).
    { destruct (a_sv s ++ [v]) as [|h t] eqn:Es; [destruct (a_sv s); discriminate|]. rewrite <- Es.
      destruct I as [(E0 & E1 & E2)|(i1 & i2 & p & q & v0 & E1 & E2 & N1 & N2 & In0 & Op & Oq)].
      - rewrite E1, E2. assert (G0 : py_get (a_sv s ++ [v]) 0 = Ret v) by (rewrite E0; reflexivity). rewrite G0. cbn [bind adjust_loop].
        rewrite (no_cross v v v v); auto. split; auto. right. exists 0%nat, 0%nat, v, v, v. cbn [a_sv a_e1 a_e2]. rewrite E0. repeat split; auto; try apply on_seg_r. left. auto.
      - assert (M1 : nth_error (a_sv s ++ [v]) i1 = Some p) by (rewrite nth_error_app1; auto; apply nth_error_Some; congruence).
        assert (M2 : nth_error (a_sv s ++ [v]) i2 = Some q) by (rewrite nth_error_app1; auto; apply nth_error_Some; congruence).
        rewrite E1, E2 in *. rewrite (nth_py _ _ _ M1), (nth_py _ _ _ M2). cbn [bind adjust_loop].
        rewrite (no_cross v p q v0); auto; [|right; destruct (Hd v0 In0); auto]. split; auto.
        right. exists i1, i2, p, q, v0. cbn [a_sv a_e1 a_e2]. repeat split; auto. right. auto. }
    destruct Adj as [-> Si]. cbn [bind]. 
    cbn [augment_loop a_sv a_inc].
    assert (Ef : filter (fun kp : pt R => negb (pt_eqb kp k)) [k] = []).
    { cbn [filter]. unfold pt_eqb. nR. destruct (Reqb_spec (fst k) (fst k)); [|congruence]. destruct (Reqb_spec (snd k) (snd k)); [reflexivity|congruence]. }
    rewrite Ef, Ei. cbn [forallb shift_u bind nth].
    (* appending without augmentation, and with a point of the segment from k to v *)
    assert (Stop : forall B i', B = [v] -> blk V A k inc i' v B -> i' = inc -> exists s' vb' B' inc', bind (Ret (AS (a_sv s ++ [v]) (a_e1 s) (a_e2 s) [inc])) (fun s3 =>
      bind (py_get (a_sv s3) (-1)) (fun vb => Ret (s3, vb))) = Ret (s', vb') /\ a_sv s' = a_sv s ++ B' /\ blk V A k inc inc' v B' /\ a_inc s' = [inc'] /\ e_inv (v :: done) s').
    { intros B i' -> Hb ->. cbn [bind a_sv]. rewrite py_last. cbn [bind]. eexists _, _, [v], inc. split; [reflexivity|]. cbn [a_sv a_inc]. repeat split; auto.  }
    assert (Go : forall c i' (P : Prop), 0 <= c <= 999 / 1000 -> (0 < area2 k v u -> blk V A k inc i' v [along k v c; v]) -> (area2 k v u < 0 -> blk V A k inc i' v [v; along k v c]) -> area2 k v u <> 0 ->
      exists s' vb' B' inc', bind (bind (augment (a_sv s ++ [v]) (along k v c : pt R) v u) (fun '(sv, e1, e2) => Ret (AS sv e1 e2 [i']))) (fun s3 =>
      bind (py_get (a_sv s3) (-1)) (fun vb => Ret (s3, vb))) = Ret (s', vb') /\ a_sv s' = a_sv s ++ B' /\ blk V A k inc inc' v B' /\ a_inc s' = [inc'] /\ e_inv (v :: done) s').
    { intros c i' _ Hc B1 B2 Nz. assert (Oc : on_seg k v (along k v c)) by (exists c; split; auto; lra). pose proof (ccw_foot c v u Hu Hc) as Cc.
      destruct (is_ccw (along k v c : pt R) v u) eqn:C.
      - rewrite augment_swap by auto. cbn [bind a_sv]. rewrite py_last2. cbn [bind].
        eexists _, _, [along k v c; v], i'. split; [reflexivity|]. cbn [a_sv a_inc]. repeat split; auto. { apply B1, Cc. auto. }
        right. exists (length (a_sv s)), (S (length (a_sv s))), (along k v c), v, v. cbn [a_sv a_e1 a_e2]. split; auto. split; [lia|].
        rewrite nth_error_app2, Nat.sub_diag by lia. split; auto. rewrite nth_error_app2 by lia. replace (S (length (a_sv s)) - length (a_sv s))%nat with 1%nat by lia.
        split; auto. split; [left; auto|]. split; auto. apply on_seg_r.
      - rewrite augment_plain by auto. cbn [bind a_sv]. rewrite py_last. cbn [bind].
        eexists _, _, [v; along k v c], i'. split; [reflexivity|]. cbn [a_sv a_inc]. rewrite <- app_assoc. repeat split; auto. { apply B2. apply Rnot_le_lt. intros L. destruct L as [L|L]; [|congruence]. apply Cc in L. discriminate. }
        right. exists (length (a_sv s ++ [v])), (length (a_sv s)), (along k v c), v, v. cbn [a_sv a_e1 a_e2]. split; auto. split; [rewrite app_length; cbn [length]; lia|].
        split; [rewrite app_length; cbn [length]; rewrite nth_error_app2 by lia; replace (length (a_sv s) + 1 - length (a_sv s))%nat with 1%nat by lia; reflexivity|].
        split; [cbn [app]; rewrite nth_error_app2, Nat.sub_diag by lia; reflexivity|]. split; [left; auto|]. split; auto. apply on_seg_r. }
    assert (Nz : area2 k v u <> 0) by (rewrite area2_swap; pose proof (edge_area V A k Enc GP u v Hu); lra).
    assert (Ft : forall u0 X (E : exists c, u0 = along k v c /\ 1 / 1000 <= c <= 999 / 1000), foot A k v u0 -> (all_side V k 1 v /\ 0 < area2 k v u) \/ (all_side V k (-1) v /\ area2 k v u < 0) -> X = bind (augment (a_sv s ++ [v]) u0 v u) (fun '(sv, e1, e2) => Ret (AS sv e1 e2 [inc])) ->
      exists s' vb' B' inc', bind X (fun s3 => bind (py_get (a_sv s3) (-1)) (fun vb => Ret (s3, vb))) = Ret (s', vb') /\ a_sv s' = a_sv s ++ B' /\ blk V A k inc inc' v B' /\ a_inc s' = [inc'] /\ e_inv (v :: done) s').
    { intros u0 X (c & -> & Hc) Hf Kd ->. apply (Go c inc True); auto; try lra.
      - intros P. right. left. exists (along k v c). repeat split; auto. left. destruct Kd as [[Q _]|[_ Q]]; [auto|lra].
      - intros P. right. left. exists (along k v c). repeat split; auto. right. destruct Kd as [[_ Q]|[Q _]]; [lra|auto]. }
    assert (Kd : (0 < area2 k u v /\ 0 < area2 k v w) \/ ((all_side V k 1 v /\ 0 < area2 k v u) \/ (all_side V k (-1) v /\ area2 k v u < 0))) by (destruct (kind u v w Hu Hw Lv) as [|[|]]; auto).
    destruct Kd as [[T1 T2]|Kd].
    - destruct (find_through V A k W Enc F Ro Pl v Hv Lv u w Hu Hw T1 T2) as [Ng Fd].
      assert (Hb : blk V A k inc inc v [v]). { left. repeat split; auto; [exists u|exists w]; rewrite br1; (split; [|]); auto; [right; auto|rewrite area2_swap; lra|left; auto]. }
      destruct (pw_meet W (line_seg k v)) eqn:Em; [congruence| | | |]; rewrite Fd; apply (Stop [v] inc); auto.
    - assert (Below : exists r, 0 < r < 1 /\ forall t, 0 < t < r -> ~ A (along k v (1 - t))).
      { destruct Kd as [[Sd _]|[Sd _]]; [apply (below_same V A k Enc GP 1 u v w s1 Hu Hw Lv)|apply (below_same V A k Enc GP (-1) u v w s2 Hu Hw Lv)]; apply Sd; [right|left|right|left]; auto. }
      destruct Below as (r & Hr & Fr). destruct (foot_or_bare V A k Enc v r Hr Fr) as [(u0 & Hf)|Hb].
      + destruct (find_foot V A k W Enc F Ro Pl v Hv Lv u0 Hf) as [Fd Ec].
        assert (Ng : pw_meet W (line_seg k v) <> GEmpty). { destruct Ec as (c & -> & Hc). apply (meet_not_empty A k W F v c); [lra|]. destruct Hf as (c' & _ & -> & Ac & _). auto. }
        destruct (pw_meet W (line_seg k v)) eqn:Em; [congruence| | | |]; rewrite Fd; apply (Ft u0); auto.
      + rewrite (meet_empty A k W F v Hb). destruct inc; cbn [negb andb firstn skipn app].
        * apply (Stop [v] true); auto. right. right. repeat split; auto. destruct Kd as [[Q _]|[Q _]]; auto.
        * pose proof (Go 0 true True) as G0. rewrite along_0 in G0. apply G0; auto; try lra; intros P; right; right; repeat split; auto; [left|right]; destruct Kd as [[Q Q']|[Q Q']]; auto; lra.
  Qed.

  Lemma one_loop vs : forall (done : list Pt) u s vb inc, (forall v, In v vs -> In v V) -> NoDup vs -> (forall v, In v vs -> ~ In v done) -> (forall v, In v done -> In v V) ->
    (forall e, In e (links u vs) -> In e (cyc_edges V)) -> e_inv done s -> a_inc s = [inc] ->
    exists s' vb' bs inc', vertex_loop W [k] u vs (s, vb) = Ret (s', vb') /\ a_sv s' = a_sv s ++ concat (map snd bs) /\ run V A k inc vs bs inc' /\ a_inc s' = [inc'].
  Proof.
    induction vs as [|v vs IH]; intros done u s vb inc Hv Nd Hd HD Hl I Ei; cbn [vertex_loop].
    { exists s, vb, [], inc. cbn [map concat]. rewrite app_nil_r. repeat split; auto. constructor. }
    inversion Nd as [|? ? N1 N2]. subst. assert (Iv : In v V) by (apply Hv; left; auto).
    assert (Hd' : forall w, In w vs -> ~ In w (v :: done)) by (intros w Hw [<-|Hw']; [contradiction|apply (Hd w); auto; right; auto]).
    assert (HD' : forall w, In w (v :: done) -> In w V) by (intros w [<-|Hw]; auto).
    destruct (lit_or V A k Enc GP v Iv) as [Lv|Nl].
    - destruct (one_step done v u s vb inc) as (s1' & vb1 & B & i1 & -> & Es & Hb & Ei1 & I1); auto. { apply Hl. left. auto. } { intros v0 H0. split; auto. intros ->. apply (Hd v); auto. left. auto. }
      cbn [bind]. destruct (IH (v :: done) v s1' vb1 i1) as (s' & vb' & bs & i' & El & Es' & Hr & Ei'); try assumption. { intros; apply Hv; right; auto. } { intros e He. apply Hl. right. auto. }
      exists s', vb', ((v, B) :: bs), i'. split; auto. split; [rewrite Es', Es; cbn [map concat snd]; rewrite app_assoc; auto|]. split; auto. eapply run_lit; eauto.
    - assert (Vf : vertex_step W [k] v u (s, vb) = Ret (s, vb)).
      { unfold vertex_step. destruct (visible W [k] v) eqn:Vi; auto. exfalso. apply Nl. apply (visible_lit V A k W Enc F Ro v Iv). auto. }
      rewrite Vf. cbn [bind]. assert (I1 : e_inv (v :: done) s). { destruct I as [|(i1 & i2 & p & q & v0 & I)]; [left; auto|right]. exists i1, i2, p, q, v0. simpl. tauto. }
      destruct (IH (v :: done) v s vb inc) as (s' & vb' & bs & i' & El & Es' & Hr & Ei'); try assumption. { intros; apply Hv; right; auto. } { intros e He. apply Hl. right. auto. }
      exists s', vb', bs, i'. repeat split; auto. constructor; auto.
  Qed.

  (** the ring begins at its vertex with largest x and is not reversed *)
  Lemma arrange_rot : exists ws, arrange (V : list (pt R)) = Ret ws /\ rot V ws /\ (3 <= length ws)%nat.
  Proof.
    destruct (enc_ring V A Enc) as (_ & L3 & _ & RT). assert (Ne : V <> []) by (intros E; rewrite E in L3; cbn in L3; lia).
    destruct (roll_spec V Ne) as (p & m & Er & Rt & Hm). rewrite Er in Rt.
    assert (Rr : rot V (p :: m)). { destruct Rt as (j & Ej). exists (firstn j V), (skipn j V). rewrite firstn_skipn. auto. }
    assert (Lm : length (p :: m) = length V). { destruct Rr as (X & Y & -> & ->). rewrite !app_length. lia. }
    destruct (exists_last_or_nil m) as [->|(m' & z & Em)]. { cbn in Lm. lia. }
    destruct m as [|q m2] eqn:Em2; [destruct m'; discriminate|].
    assert (E1 : In (p, q) (cyc_edges (p :: q :: m2))) by (left; auto).
    assert (E2 : In (z, p) (cyc_edges (p :: q :: m2))) by (rewrite Em; apply cyc_wrap).
    rewrite <- (rot_edges V) in E1, E2 by auto.
    assert (Cw : is_cw z p q = false). { apply is_cw_false. pose proof TH_pos. destruct (RT z p q E2 E1 Hm) as [P|(A1 & A2 & _)]; [lra|]. replace (area2 z p q) with 0; [lra|]. unv. rewrite A1, A2. ring. }
    exists (p :: q :: m2). split; [|split; auto; lia]. unfold arrange. cbv zeta. rewrite Er.
    assert (G1 : py_get (p :: q :: m2) (-1) = Ret z) by (rewrite Em; exact (py_last (p :: m') z)).
    assert (G2 : py_get (p :: q :: m2) 0 = Ret p) by reflexivity.
    assert (G3 : py_get (p :: q :: m2) 1 = Ret q) by (change 1%Z with (Z.of_nat 1); apply nth_py; reflexivity).
    rewrite G1. cbn [bind]. rewrite G2. cbn [bind]. rewrite G3. cbn [bind]. rewrite Cw. reflexivity.
  Qed.
  Lemma final_same (sv : list (pt R)) i : (forall x y, In (x, y) (cyc_edges sv) -> 0 <= area2 k x y) -> forall c j, (j + c = length sv)%nat -> final_loop [k] c j sv [i] = Ret sv.
  Proof.
    intros E. induction c as [|c IH]; intros j L; cbn [final_loop]; [reflexivity|].
    assert (G : exists v vp, py_get sv (Z.of_nat j - 1) = Ret v /\ py_get sv (Z.of_nat j) = Ret vp /\ In (v, vp) (cyc_edges sv)).
    { destruct (nth_error sv j) as [vp|] eqn:Ej; [|apply nth_error_None in Ej; lia].
      destruct j as [|j].
      - destruct sv as [|a t]; [discriminate|]. injection Ej as <-. destruct (exists_last_or_nil t) as [->|(t' & b & ->)].
        + exists a, a. repeat split; auto. cbn. auto.
        + exists b, a. split; [exact (py_last (a :: t') b)|]. split; [reflexivity|apply cyc_wrap].
      - destruct (nth_error sv j) as [v|] eqn:Ej'; [|apply nth_error_None in Ej'; lia].
        exists v, vp. replace (Z.of_nat (S j) - 1)%Z with (Z.of_nat j) by lia. split; [apply nth_py; auto|]. split; [apply nth_py; auto|]. eapply cyc_next; eauto. }
    destruct G as (v & vp & -> & -> & Hc). cbn [bind insert_kernel nth].
    assert (C : is_cw k v vp = false) by (apply is_cw_false; specialize (E v vp Hc); pose proof TH_pos; lra). rewrite C, andb_false_r. apply IH. lia.
  Qed.
  (** the whole call, once the areas over the edges of the vertex list are known *)
  Lemma one_run : exists ws bs i, rot V ws /\ run V A k false ws bs i /\
    ((forall x y, In (x, y) (cyc_edges (concat (map snd bs))) -> 0 <= area2 k x y) -> (3 <= length (concat (map snd bs)))%nat ->
     polygon_kernel_starshaped_hull W [k] V = Ret (concat (map snd bs))).
  Proof.
    destruct arrange_rot as (ws & Ar & Rr & L3). assert (NDw : NoDup ws) by apply (proj1 (enc_ring ws A (rot_enc _ _ _ Rr Enc))).
    destruct (one_loop ws [] (last ws k) (AS [] 0 0 [false]) k false) as (s' & vb' & bs & i & El & Es & Hr & Ei); auto.
    { intros v Hv. rewrite (rot_in V); eauto. } { intros v []. }
    { intros [e f] He. apply (rot_edges V _ _ Rr). destruct ws as [|b t]; [destruct He|]. cbn [links] in He. destruct He as [He|He].
      - injection He as <- <-. change (In (last (b :: t) k, b) (cyc_edges (b :: t))). rewrite last_cons. apply cyc_last.
      - destruct (links_in _ _ _ _ He) as [_ (X & Y & E)]. pose proof (cyc_mid X Y e f) as Q. rewrite <- E in Q. exact Q. }
    { left. auto. }
    cbn [a_sv app] in Es. exists ws, bs, i. split; auto. split; auto. intros Ha Hl.
    unfold polygon_kernel_starshaped_hull, hull_from. rewrite Ar. cbn [bind map]. rewrite El. cbn [bind]. rewrite Es, Ei, final_same; auto. cbn [bind].
    assert (G : forall sv : list (pt R), (3 <= length sv)%nat -> (match sv with [_] | [_; _] => Exn ValueErr | _ => Ret sv end) = Ret sv) by (intros [|a [|b [|c d]]] H; cbn in H; try lia; reflexivity).
    apply G. exact Hl.
  Qed.
End Steps.
