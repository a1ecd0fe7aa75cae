(** C96: what [NURBS(knots, control, fields, weights)] stores, in double precision: values times weights, divided again. *)
From Coq Require Import ZArith Reals List Bool SpecFloat Lia Lra.
From Verif Require Import Num Loop Spec ModelBspline ModelBSp ModelNurbs ModelFloat SpecDouble SpecRound3 ProofRound ProofRound2 ProofRound3 ProofRound4 ProofRound8.
Import ListNotations.
Local Open Scope R_scope.

(** ** One value *)
Lemma size_mul x y : b2 (-300) <= Rabs x <= b2 300 -> b2 (-300) <= Rabs y <= b2 300 -> b2 (-600) <= Rabs (x * y) <= b2 600.
Proof.
  intros [A B] [C D]. rewrite Rabs_mult. pose proof (b2_pos (-300)).
  replace (-600)%Z with (-300 + -300)%Z by lia. replace 600%Z with (300 + 300)%Z by lia. rewrite !b2_add.
  split; apply Rmult_le_compat; try lra; apply Rabs_pos.
Qed.
Lemma eta_small r : b2 (-900) <= r -> eta <= uu * (uu * r).
Proof. intros H. unfold eta, uu. apply Rle_trans with (b2 (-53) * (b2 (-53) * b2 (-900))); [rewrite <- !b2_add; apply b2_le; lia|]. pose proof (b2_pos (-53)). apply Rmult_le_compat_l; [lra|]. apply Rmult_le_compat_l; [lra|]. exact H. Qed.
Lemma size_div x y : b2 (-601) <= Rabs x <= b2 601 -> b2 (-300) <= Rabs y <= b2 300 -> b2 (-901) <= Rabs (x / y) <= b2 901.
Proof.
  intros [A B] [C D]. pose proof (b2_pos (-300)). pose proof (b2_pos (-601)). pose proof (b2_pos 300). pose proof (b2_pos 601).
  assert (y <> 0) by (intros ->; rewrite Rabs_R0 in C; lra). unfold Rdiv. rewrite Rabs_mult, Rabs_inv.
  assert (I : forall k, / b2 k = b2 (- k)). { intros k. apply Rmult_eq_reg_l with (b2 k); [|pose proof (b2_pos k); lra]. rewrite Rinv_r by (pose proof (b2_pos k); lra). rewrite <- b2_add, Z.add_opp_diag_r. symmetry. apply b2_0. }
  assert (J1 : b2 (-300) <= / Rabs y) by (replace (b2 (-300)) with (/ b2 300) by (rewrite I; reflexivity); apply Rinv_le_contravar; lra).
  assert (J2 : / Rabs y <= b2 300) by (replace (b2 300) with (/ b2 (-300)) by (rewrite I; reflexivity); apply Rinv_le_contravar; lra).
  replace (-901)%Z with (-601 + -300)%Z by lia. replace 901%Z with (601 + 300)%Z by lia. rewrite !b2_add.
  split; apply Rmult_le_compat; lra.
Qed.
Lemma mul_div x w : sized x -> sized w -> dval w <> 0 -> reads (SFdiv 53 1024 (SFmul 53 1024 x w) w) x (b2 (-51)).
Proof.
  intros [Fx Sx] [Fw [Hw|Sw]] NW; [lra|]. pose proof uu_pos. pose proof eta_pos.
  assert (EU : b2 (-51) = 4 * uu) by (unfold uu; change (-51)%Z with (2 + -53)%Z; rewrite b2_add; f_equal; unfold b2; simpl; lra).
  destruct Sx as [Hx|Sx].
  - assert (M0 : Rabs (dval x * dval w) < b2 1023) by (rewrite Hx, Rmult_0_l, Rabs_R0; apply b2_pos).
    destruct (mul_full x w Fx Fw M0) as (Fm & _ & _ & Rm). set (m := SFmul 53 1024 x w) in *.
    assert (Vm : dval m = 0). { rewrite Hx, Rmult_0_l in Rm. exact (rounds_exact 0 (dval m) x Fx Hx Rm). }
    assert (D0 : Rabs (dval m / dval w) < b2 1023) by (unfold Rdiv; rewrite Vm, Rmult_0_l, Rabs_R0; apply b2_pos).
    destruct (div_full m w Fm Fw NW D0) as (Fd & _ & _ & Rd). set (d := SFdiv 53 1024 m w) in *. split; [exact Fd|].
    unfold Rdiv in Rd. rewrite Vm, Rmult_0_l in Rd. rewrite (rounds_exact 0 (dval d) x Fx Hx Rd), Hx, Rminus_0_r, Rabs_R0. lra.
  - pose proof (size_mul _ _ Sx Sw) as [P1 P2].
    destruct (mul_ok x w Fx Fw) as (Fm & Em & _). { apply Rle_lt_trans with (1 := P2). apply b2_lt. lia. }
    cbv zeta in Fm, Em. set (m := SFmul 53 1024 x w) in *. set (p := dval x * dval w) in *.
    assert (Ep : eta <= uu * (uu * Rabs p)) by (apply eta_small; apply Rle_trans with (2 := P1); apply b2_le; lia).
    assert (U1 : uu <= / 1024) by (rewrite uu_val; lra).
    assert (Ep2 : uu * (uu * Rabs p) <= / 1024 * (uu * Rabs p)) by (apply Rmult_le_compat_r; [apply Rmult_le_pos; [lra|apply Rabs_pos]|exact U1]).
    assert (Em2 : Rabs (dval m - p) <= 1025 / 1024 * (uu * Rabs p)) by lra.
    assert (UP : uu * Rabs p <= / 1024 * Rabs p) by (apply Rmult_le_compat_r; [apply Rabs_pos|exact U1]).
    assert (Sm : b2 (-601) <= Rabs (dval m) <= b2 601).
    { change (-601)%Z with (-1 + -600)%Z. change 601%Z with (1 + 600)%Z. rewrite !b2_add. replace (b2 (-1)) with (/ 2) by (unfold b2; simpl; lra). replace (b2 1) with 2 by (unfold b2; simpl; lra).
      pose proof (Rabs_triang_inv p (dval m)). pose proof (Rabs_triang_inv (dval m) p). rewrite (Rabs_minus_sym p) in H1. split; lra. }
    pose proof (size_div _ _ Sm Sw) as [D1 D2].
    destruct (div_ok m w Fm Fw NW) as (Fd & Ed & _). { apply Rle_lt_trans with (1 := D2). apply b2_lt. lia. }
    cbv zeta in Fd, Ed. set (d := SFdiv 53 1024 m w) in *. split; [exact Fd|].
    set (q := dval m / dval w) in *.
    assert (Eq : Rabs (q - dval x) <= 1025 / 1024 * (uu * Rabs (dval x))).
    { replace (q - dval x) with ((dval m - p) / dval w) by (unfold q, p; field; exact NW). unfold Rdiv. rewrite Rabs_mult, Rabs_inv.
      assert (0 < Rabs (dval w)) by (apply Rabs_pos_lt; exact NW). apply Rmult_le_reg_r with (Rabs (dval w)); [assumption|]. rewrite Rmult_assoc, Rinv_l, Rmult_1_r by lra.
      apply Rle_trans with (1 := Em2). unfold p. rewrite Rabs_mult. lra. }
    assert (Ee : eta <= uu * (uu * Rabs q)).
    { assert (X : b2 (-900) <= Rabs (dval x) / 2).
      { apply Rle_trans with (b2 (-301)); [apply b2_le; lia|]. change (-301)%Z with (-1 + -300)%Z. rewrite b2_add. replace (b2 (-1)) with (/ 2) by (unfold b2; simpl; lra). lra. }
      apply eta_small. apply Rle_trans with (1 := X). assert (uu * Rabs (dval x) <= / 1024 * Rabs (dval x)) by (apply Rmult_le_compat_r; [apply Rabs_pos|exact U1]).
      pose proof (Rabs_triang_inv (dval x) q). rewrite (Rabs_minus_sym (dval x)) in H2. pose proof (Rabs_pos (dval x)). lra. }
    assert (Uq : uu * (uu * Rabs q) <= / 1024 * (uu * Rabs q)) by (apply Rmult_le_compat_r; [apply Rmult_le_pos; [lra|apply Rabs_pos]|exact U1]).
    assert (Qx : uu * Rabs q <= uu * (1026 / 1024 * Rabs (dval x))).
    { apply Rmult_le_compat_l; [lra|]. pose proof (Rabs_triang_inv q (dval x)). assert (uu * Rabs (dval x) <= / 1026 * Rabs (dval x)) by (apply Rmult_le_compat_r; [apply Rabs_pos|rewrite uu_val; lra]). pose proof (Rabs_pos (dval x)). lra. }
    replace (dval d - dval x) with ((dval d - q) + (q - dval x)) by ring. apply Rle_trans with (1 := Rabs_triang _ _). rewrite EU.
    assert (0 <= uu * Rabs (dval x)) by (apply Rmult_le_pos; [lra|apply Rabs_pos]). lra.
Qed.

(** ** Powers of two *)
Lemma shift_exact x k : sized x -> (-300 <= k <= 300)%Z -> exists z, finite z /\ dval z = dval x * b2 k.
Proof.
  intros [F S] Hk. destruct S as [Z0|[S1 S2]]; [exists x; split; [exact F|]; rewrite Z0; lra|].
  destruct x as [s|s| |s m e]; try nofin; [cbn [dval] in S1; rewrite Rabs_R0 in S1; pose proof (b2_pos (-300)); lra|].
  destruct (finite_range s m e F) as (E1 & E2 & E3 & E4).
  assert (DV : dval (S754_finite s m e) = sg s * (IZR (Zpos m) * b2 e)) by apply dval_sg.
  rewrite DV, sg_abs, Rabs_right in S1, S2 by (apply Rle_ge, Rmult_le_pos; [apply IZR_le; lia|left; apply b2_pos]).
  destruct (digits_range (Zpos m) ltac:(lia)) as [[D1 D2] D3]. cbn [Zdigits2] in D1, D2, D3.
  assert (LO : (-300 < Zpos (digits2_pos m) + e)%Z).
  { apply b2_lt_inv. apply Rle_lt_trans with (1 := S1). rewrite b2_add. apply Rmult_lt_compat_r; [apply b2_pos|]. rewrite b2_IZR by lia. apply IZR_lt. exact D2. }
  assert (HI : (Zpos (digits2_pos m) - 1 + e < 301)%Z).
  { apply b2_lt_inv. apply Rle_lt_trans with (b2 300); [|apply b2_lt; lia]. apply Rle_trans with (2 := S2). rewrite b2_add. apply Rmult_le_compat_r; [left; apply b2_pos|]. rewrite b2_IZR by lia. apply IZR_le. exact D1. }
  exists (S754_finite s m (e + k)). split.
  - split; [|exact I]. unfold valid_binary, bounded, canonical_mantissa. rewrite fexp_fe. unfold fe in *.
    apply andb_true_intro. split; [apply Zeq_is_eq_bool; lia|apply Z.leb_le; lia].
  - rewrite DV, dval_sg, b2_add. ring.
Qed.
Lemma mul_div_exact x w : sized x -> two_power w -> let r := SFdiv 53 1024 (SFmul 53 1024 x w) w in finite r /\ dval r = dval x.
Proof.
  intros Sx (Fw & k & Hk & Vw) r. pose proof (b2_pos k) as Pk. pose proof Sx as [Fx SS].
  assert (B : forall a, (a <= 300)%Z -> Rabs (dval x * b2 a) <= b2 (300 + a)).
  { intros a Ha. rewrite Rabs_mult, b2_add, (Rabs_right (b2 a)) by (left; apply b2_pos). apply Rmult_le_compat_r; [left; apply b2_pos|].
    destruct SS as [->|[_ S2]]; [rewrite Rabs_R0; left; apply b2_pos|exact S2]. }
  destruct (shift_exact x k Sx Hk) as (z & Fz & Vz).
  destruct (mul_full x w Fx Fw) as (Fm & _ & _ & Rm). { rewrite Vw. apply Rle_lt_trans with (1 := B k ltac:(lia)). apply b2_lt. lia. }
  cbv zeta in Fm, Rm. set (m := SFmul 53 1024 x w) in *. rewrite Vw in Rm.
  assert (Vm : dval m = dval x * b2 k) by exact (rounds_exact _ _ z Fz Vz Rm).
  assert (Q : dval m / dval w = dval x) by (rewrite Vm, Vw; field; lra).
  destruct (div_full m w Fm Fw) as (Fd & _ & _ & Rd); [rewrite Vw; lra| |].
  { rewrite Q. apply Rle_lt_trans with (b2 300); [|apply b2_lt; lia]. destruct SS as [->|[_ S2]]; [rewrite Rabs_R0; left; apply b2_pos|exact S2]. }
  cbv zeta in Fd, Rd. fold r in Fd, Rd. split; [exact Fd|]. rewrite Q in Rd. exact (rounds_exact _ _ x Fx eq_refl Rd).
Qed.
Lemma div_one x w : sized x -> finite w -> dval w = 1 -> let r := SFdiv 53 1024 x w in finite r /\ dval r = dval x.
Proof.
  intros [Fx SS] Fw Vw r. assert (Q : dval x / dval w = dval x) by (rewrite Vw; field).
  destruct (div_full x w Fx Fw) as (Fd & _ & _ & Rd); [rewrite Vw; lra| |].
  { rewrite Q. apply Rle_lt_trans with (b2 300); [|apply b2_lt; lia]. destruct SS as [->|[_ S2]]; [rewrite Rabs_R0; left; apply b2_pos|exact S2]. }
  cbv zeta in Fd, Rd. fold r in Fd, Rd. split; [exact Fd|]. rewrite Q in Rd. exact (rounds_exact _ _ x Fx eq_refl Rd).
Qed.

(** ** What the constructor stores, for any arithmetic *)
Lemma init_stored {N : Num} (junk : Z -> N) knots c fields weights nrb : init junk knots (Some c) fields weights = Ok nrb ->
  let sdim := last (nd_shape c) 0%Z in
  ((sdim < 4)%Z -> forall idx, let w := match weights with Some w => nd_get w idx | None => n1 N end in
     n_arr nrb idx 3%Z = w /\
     forall k, (0 <= k < 3)%Z -> n_arr nrb idx k = if (k <? sdim)%Z then match weights with Some _ => nmul N (nd_get c (idx ++ [k])) w | None => nd_get c (idx ++ [k]) end else n0 N) /\
  match fields with
  | None => n_comp nrb = 4%Z
  | Some f => (nd_shape f = removelast (nd_shape c) /\ n_comp nrb = 5%Z /\ forall idx, n_arr nrb idx 4%Z = nmul N (nd_get f idx) (n_arr nrb idx 3%Z)) \/
      (removelast (nd_shape f) = removelast (nd_shape c) /\ n_comp nrb = (4 + last (nd_shape f) 0)%Z /\
       forall idx k, (0 <= k)%Z -> n_arr nrb idx (4 + k)%Z = nmul N (nd_get f (idx ++ [k])) (n_arr nrb idx 3%Z))
  end.
Proof.
  assert (SE : forall a b, shape_eqb a b = true -> a = b).
  { induction a as [|x a IH]; intros [|y b] H; simpl in H; try discriminate; auto.
    apply andb_prop in H. destruct H as [H1 H2]. apply Z.eqb_eq in H1. subst. f_equal. auto. }
  intros E sdim. unfold init, assert in E.
  destruct (Z.leb_spec 1 (Z.of_nat (length knots))); [|discriminate]. cbn [bind] in E.
  destruct (Z.leb_spec (Z.of_nat (length knots)) 3); [|discriminate]. cbn [bind] in E.
  destruct (forallb _ knots) eqn:EK; [|discriminate]. cbn [bind] in E.
  destruct (init_control _ _ _ _) as [[sh cw]|] eqn:EC; [|discriminate]. cbn [bind] in E.
  destruct (init_fields _ _) as [[[shape' nc] f]|] eqn:EF; [|discriminate]. cbn [bind] in E.
  destruct (Z.eqb_spec (Z.of_nat (length shape')) (Z.of_nat (length knots))) as [EL|]; [|discriminate]. cbn [bind] in E.
  destruct (forallb _ (zip_axes shape' knots)) eqn:ED; [|discriminate]. cbn [bind] in E. injection E as <-. cbn [n_arr n_comp].
  unfold init_control, assert in EC.
  destruct (2 <=? Z.of_nat (length (nd_shape c)))%Z; [|discriminate]. cbn [bind] in EC. fold sdim in EC.
  destruct (Z.leb_spec 2 sdim); [|discriminate]. cbn [bind] in EC.
  destruct (Z.leb_spec sdim 4); [|discriminate]. cbn [bind] in EC.
  assert (CW : sh = removelast (nd_shape c) /\
    ((sdim < 4)%Z -> forall idx, let w := match weights with Some w => nd_get w idx | None => n1 N end in
       cw idx 3%Z = w /\ forall k, (0 <= k < 3)%Z -> cw idx k = if (k <? sdim)%Z then match weights with Some _ => nmul N (nd_get c (idx ++ [k])) w | None => nd_get c (idx ++ [k]) end else n0 N)).
  { destruct (Z.ltb_spec sdim 4).
    - destruct weights as [w|].
      + destruct (shape_eqb _ _); [|discriminate]. cbn [bind] in EC. injection EC as <- <-. split; auto. intros _ idx w'.
        destruct (Z.ltb_spec 3 sdim); [lia|]. split; [reflexivity|]. intros k Hk. destruct (Z.ltb_spec k sdim); [reflexivity|]. destruct (Z.eqb_spec k 3); [lia|reflexivity].
      + injection EC as <- <-. split; auto. intros _ idx w'.
        destruct (Z.ltb_spec 3 sdim); [lia|]. split; [reflexivity|]. intros k Hk. destruct (Z.ltb_spec k sdim); [reflexivity|]. destruct (Z.eqb_spec k 3); [lia|reflexivity].
    - destruct weights; [discriminate|]. cbn [bind is_none] in EC. injection EC as <- <-. split; [auto|lia]. }
  destruct CW as [-> CW]. unfold init_fields in EF. destruct fields as [fl|].
  - destruct (shape_eqb (nd_shape fl) _) eqn:SH.
    + injection EF as <- <- <-. cbn [Z.ltb Z.compare Pos.compare Pos.compare_cont]. split.
      * intros Hs idx. destruct (CW Hs idx) as [C1 C2]. split; [exact C1|]. intros k Hk. destruct (Z.ltb_spec k 4); [|lia]. apply C2. exact Hk.
      * left. split; [apply SE; exact SH|]. split; [reflexivity|]. reflexivity.
    + unfold assert in EF. destruct (Z.of_nat (length (nd_shape fl)) - 1 =? _)%Z; [|discriminate]. cbn [bind] in EF.
      destruct (shape_eqb (removelast (nd_shape fl)) _) eqn:SH2; [|discriminate]. cbn [bind] in EF. injection EF as <- <- <-. cbn [Z.ltb Z.compare Pos.compare Pos.compare_cont]. split.
      * intros Hs idx. destruct (CW Hs idx) as [C1 C2]. split; [exact C1|]. intros k Hk. destruct (Z.ltb_spec k 4); [|lia]. apply C2. exact Hk.
      * right. split; [apply SE; exact SH2|]. split; [reflexivity|]. intros idx k Hk. destruct (Z.ltb_spec (4 + k) 4); [lia|]. replace (4 + k - 4)%Z with k by lia. reflexivity.
  - injection EF as <- <- <-. split; [exact CW|reflexivity].
Qed.

Theorem stored_weights {N : Num} (junk : Z -> N) knots c fields weights nrb idx : init junk knots (Some c) fields weights = Ok nrb -> (last (nd_shape c) 0 < 4)%Z ->
  n_weights nrb idx = match weights with Some w => nd_get w idx | None => n1 N end.
Proof. intros E H. exact (proj1 (proj1 (init_stored junk knots c fields weights nrb E) H idx)). Qed.
Lemma read_zero w : sized w -> dval w <> 0 -> finite (SFdiv 53 1024 (S754_zero false) w) /\ dval (SFdiv 53 1024 (S754_zero false) w) = 0.
Proof.
  intros [Fw _] NW. assert (F0 : finite (S754_zero false)) by (split; [reflexivity|exact I]).
  assert (Q : dval (S754_zero false) / dval w = 0) by (cbn [dval]; unfold Rdiv; ring).
  destruct (div_full _ w F0 Fw NW) as (Fd & _ & _ & Rd); [rewrite Q, Rabs_R0; apply b2_pos|]. rewrite Q in Rd. split; [exact Fd|]. exact (rounds_exact 0 _ _ F0 eq_refl Rd).
Qed.
Theorem read_points (junk : Z -> Dn) knots c fields w nrb idx k : init (N:=Dn) junk knots (Some c) fields (Some w) = Ok nrb -> let sdim := last (nd_shape c) 0%Z in (sdim < 4)%Z ->
  sized (nd_get w idx) -> dval (nd_get w idx) <> 0 -> (0 <= k < 3)%Z ->
  ((k < sdim)%Z -> sized (nd_get c (idx ++ [k])) -> reads (n_points nrb idx k) (nd_get c (idx ++ [k])) (b2 (-51)) /\ (two_power (nd_get w idx) -> dval (n_points nrb idx k) = dval (nd_get c (idx ++ [k])))) /\
  ((sdim <= k)%Z -> finite (n_points nrb idx k) /\ dval (n_points nrb idx k) = 0).
Proof.
  intros E sdim Hs Sw NW Hk. destruct (proj1 (init_stored junk knots c fields (Some w) nrb E) Hs idx) as [W3 W]. cbv iota beta in W3, W. specialize (W k Hk). fold sdim in W.
  unfold n_points. rewrite W3, W. destruct (Z.ltb_spec k sdim); split; intros Hks; try lia.
  - intros Sx. split; [exact (mul_div _ _ Sx Sw NW)|]. intros TP. exact (proj2 (mul_div_exact _ _ Sx TP)).
  - exact (read_zero _ Sw NW).
Qed.
Theorem read_points_none (junk : Z -> Dn) knots c fields nrb idx k : init (N:=Dn) junk knots (Some c) fields None = Ok nrb -> let sdim := last (nd_shape c) 0%Z in (sdim < 4)%Z -> (0 <= k < 3)%Z ->
  ((k < sdim)%Z -> sized (nd_get c (idx ++ [k])) -> finite (n_points nrb idx k) /\ dval (n_points nrb idx k) = dval (nd_get c (idx ++ [k]))) /\
  ((sdim <= k)%Z -> finite (n_points nrb idx k) /\ dval (n_points nrb idx k) = 0).
Proof.
  intros E sdim Hs Hk. destruct (proj1 (init_stored junk knots c fields None nrb E) Hs idx) as [W3 W]. cbv iota beta in W3, W. specialize (W k Hk). fold sdim in W.
  assert (F1 : finite (n1 Dn)) by (split; [vm_compute; reflexivity|exact I]). assert (V1 : dval (n1 Dn) = 1) by exact dval_one.
  unfold n_points. rewrite W3, W. destruct (Z.ltb_spec k sdim); split; intros Hks; try lia.
  - intros Sx. exact (div_one _ _ Sx F1 V1).
  - assert (F0 : finite (n0 Dn)) by (split; [reflexivity|exact I]). exact (div_one (n0 Dn) _ (conj F0 (or_introl eq_refl)) F1 V1).
Qed.
Theorem read_fields (junk : Z -> Dn) knots c f weights nrb : init (N:=Dn) junk knots (Some c) (Some f) weights = Ok nrb -> (4 < n_comp nrb)%Z ->
  exists g, n_fields nrb = Some g /\ forall idx k, (0 <= k < n_comp nrb - 4)%Z ->
    let v := if shape_eqb (nd_shape f) (removelast (nd_shape c)) then nd_get f idx else nd_get f (idx ++ [k]) in
    sized v -> sized (n_weights nrb idx) -> dval (n_weights nrb idx) <> 0 ->
    reads (g idx k) v (b2 (-51)) /\ (two_power (n_weights nrb idx) -> dval (g idx k) = dval v).
Proof.
  intros E H4. unfold n_fields. destruct (Z.leb_spec (n_comp nrb) 4); [lia|]. eexists. split; [reflexivity|]. intros idx k Hk. cbv zeta beta. set (v := if shape_eqb (nd_shape f) (removelast (nd_shape c)) then nd_get f idx else nd_get f (idx ++ [k])). intros Sv Sw NW.
  assert (V : n_arr nrb idx (4 + k)%Z = nmul Dn v (n_arr nrb idx 3%Z)).
  { clear Sv. unfold v. clear v. pose proof E as E'. unfold init, assert in E'. 
    destruct (1 <=? Z.of_nat (length knots))%Z; [|discriminate]. cbn [bind] in E'. destruct (Z.of_nat (length knots) <=? 3)%Z; [|discriminate]. cbn [bind] in E'.
    destruct (forallb _ knots); [|discriminate]. cbn [bind] in E'. destruct (init_control _ _ _ _) as [[sh cw]|] eqn:EC; [|discriminate]. cbn [bind] in E'.
    assert (SH : sh = removelast (nd_shape c)).
    { unfold init_control, assert in EC. destruct (2 <=? Z.of_nat (length (nd_shape c)))%Z; [|discriminate]. cbn [bind] in EC. destruct (2 <=? _)%Z; [|discriminate]. cbn [bind] in EC. destruct (_ <=? 4)%Z; [|discriminate]. cbn [bind] in EC.
      destruct (_ <? 4)%Z; [destruct weights; [destruct (shape_eqb _ _); [|discriminate]|]; cbn [bind] in EC; injection EC; auto|]. destruct weights; [discriminate|]. cbn [bind is_none] in EC. injection EC; auto. }
    rewrite SH in E'. unfold init_fields in E'. destruct (shape_eqb (nd_shape f) (removelast (nd_shape c))) eqn:Q.
    - cbn [bind] in E'. destruct (_ =? _)%Z; [|discriminate]. cbn [bind assert] in E'. destruct (forallb _ _); [|discriminate]. cbn [bind] in E'. injection E' as <-. cbn [n_arr n_comp] in *.
      destruct (Z.ltb_spec (4 + k) 4); [lia|]. reflexivity.
    - unfold assert in E'. destruct (_ =? _)%Z; [|discriminate]. cbn [bind] in E'. destruct (shape_eqb (removelast (nd_shape f)) _); [|discriminate]. cbn [bind] in E'. destruct (_ =? _)%Z; [|discriminate]. cbn [bind] in E'. destruct (forallb _ _); [|discriminate]. cbn [bind] in E'. injection E' as <-. cbn [n_arr n_comp] in *.
      destruct (Z.ltb_spec (4 + k) 4); [lia|]. replace (4 + k - 4)%Z with k by lia. reflexivity. }
  rewrite V. unfold n_weights in *. split; [exact (mul_div _ _ Sv Sw NW)|]. intros TP. exact (proj2 (mul_div_exact _ _ Sv TP)).
Qed.
