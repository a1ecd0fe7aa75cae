(** PetIGA vectors and matrices. *)
From Coq Require Import ZArith List Bool Lia.
From Verif Require Import Num ModelNurbs ModelCad ModelIo SpecIo ProofIo ProofIo2 ProofIo3.
Import ListNotations.
Local Open Scope Z_scope.

(** ** C order *)
Lemma prod_app a b : prod (a ++ b) = prod a * prod b.
Proof. induction a; [cbn [app]; unfold prod at 2; cbn [fold_right]; lia|]. cbn [app]. rewrite !prod_cons, IHa. lia. Qed.
Lemma prod_rev sh : prod (rev sh) = prod sh.
Proof. induction sh; [reflexivity|]. cbn [rev]. rewrite prod_app, IHsh, !prod_cons. unfold prod at 2. cbn [fold_right]. lia. Qed.
Lemma loops_length sh : Forall (fun s => 0 <= s) sh -> Z.of_nat (length (loops sh)) = prod sh.
Proof.
  induction 1 as [|s sh Hs H IH]; [reflexivity|]. cbn [loops]. rewrite prod_cons, <- IH. rewrite <- (Z2Nat.id s) at 2 by auto.
  rewrite <- (zseq_length (Z.to_nat s) 0) at 2. generalize (zseq (Z.to_nat s) 0). intros l. induction l; [reflexivity|].
  cbn [flat_map]. rewrite app_length, map_length. cbn [length]. lia.
Qed.
Lemma ravel_app sh1 sh2 i1 i2 : length sh1 = length i1 -> ravel (sh1 ++ sh2) (i1 ++ i2) = ravel sh1 i1 + prod sh1 * ravel sh2 i2.
Proof.
  revert i1. induction sh1 as [|s sh1 IH]; intros [|i i1] L; try discriminate; [cbn [app ravel]; unfold prod; cbn [fold_right]; lia|].
  cbn [app ravel]. rewrite prod_cons, IH by (cbn in L; lia). lia.
Qed.
Lemma unravel_app sh1 sh2 k : Forall (fun s => 0 < s) sh1 -> unravel (sh1 ++ sh2) k = unravel sh1 k ++ unravel sh2 (k / prod sh1).
Proof.
  intros H. revert k. induction H as [|s sh1 Hs H IH]; intros k; [cbn [app unravel]; unfold prod; cbn [fold_right]; rewrite Z.div_1_r; reflexivity|].
  cbn [app unravel]. rewrite IH, prod_cons. f_equal. f_equal. rewrite Z.div_div; auto; [lia|apply prod_pos; auto].
Qed.
Lemma unravel_mod sh k : Forall (fun s => 0 < s) sh -> unravel sh (k mod prod sh) = unravel sh k.
Proof.
  intros H. revert k. induction H as [|s sh Hs H IH]; intros k; [reflexivity|]. cbn [unravel]. rewrite prod_cons. pose proof (prod_pos _ H).
  rewrite Z.rem_mul_r by lia. f_equal.
  - rewrite Z.mul_comm, Z_mod_plus_full. apply Z.mod_mod. lia.
  - rewrite <- (IH (k / s)). f_equal. rewrite Z.mul_comm, Z.div_add, Z.div_small by (try lia; apply Z.mod_pos_bound; lia). lia.
Qed.
Lemma forall_rev {A : Type} (P : A -> Prop) l : Forall P l -> Forall P (rev l).
Proof. intros H. apply Forall_forall. intros x I. apply in_rev in I. rewrite Forall_forall in H. auto. Qed.
Lemma unravel_c_cons s sh k : Forall (fun s => 0 < s) sh -> 0 <= k < s * prod sh -> unravel_c (s :: sh) k = k / prod sh :: unravel_c sh k.
Proof.
  intros H Hk. unfold unravel_c. cbn [rev]. rewrite unravel_app by (apply forall_rev; auto). rewrite rev_app_distr. cbn [unravel rev app]. f_equal.
  rewrite prod_rev. apply Z.mod_small. pose proof (prod_pos _ H). split; [apply Z.div_pos; lia|apply Z.div_lt_upper_bound; lia].
Qed.
Lemma unravel_c_mod sh k : Forall (fun s => 0 < s) sh -> unravel_c sh (k mod prod sh) = unravel_c sh k.
Proof. intros H. unfold unravel_c. rewrite <- (prod_rev sh). rewrite unravel_mod by (apply forall_rev; auto). reflexivity. Qed.
Lemma loops_eq sh : Forall (fun s => 0 < s) sh -> loops sh = map (unravel_c sh) (zseq (Z.to_nat (prod sh)) 0).
Proof.
  induction 1 as [|s sh Hs H IH]; [reflexivity|]. pose proof (prod_pos _ H) as P. cbn [loops]. rewrite IH.
  rewrite prod_cons, Z.mul_comm, Z2Nat.inj_mul by lia. rewrite zseq_blocks, map_flat_map by lia.
  rewrite !flat_map_concat_map. f_equal. apply map_ext_in. intros i Hi. apply in_zseq in Hi. rewrite !map_map. apply map_ext_in. intros k Hk. apply in_zseq in Hk.
  rewrite Z2Nat.id in * by lia. rewrite unravel_c_cons by (auto; nia). f_equal.
  - rewrite Z.mul_comm, Z.div_add, Z.div_small; lia.
  - rewrite <- (unravel_c_mod sh (k + _)) by auto. rewrite Z.mul_comm, Z_mod_plus_full, unravel_c_mod by auto. reflexivity.
Qed.
Lemma ravel_c_range sh idx : in_shape sh idx -> 0 <= ravel_c sh idx < prod sh.
Proof.
  intros H. unfold ravel_c. rewrite <- prod_rev. apply ravel_range. unfold in_shape in *.
  induction H; [constructor|]. cbn [rev]. apply Forall2_app; auto.
Qed.
Lemma in_shape_rev sh idx : in_shape sh idx -> in_shape (rev sh) (rev idx).
Proof. unfold in_shape. induction 1; [constructor|]. cbn [rev]. apply Forall2_app; auto. Qed.
Lemma unravel_ravel_c sh idx : in_shape sh idx -> unravel_c sh (ravel_c sh idx) = idx.
Proof. intros H. unfold unravel_c, ravel_c. rewrite unravel_ravel by (apply in_shape_rev; auto). apply rev_involutive. Qed.
Lemma ravel_unravel_c sh k : Forall (fun s => 0 < s) sh -> 0 <= k < prod sh -> ravel_c sh (unravel_c sh k) = k.
Proof. intros H Hk. unfold unravel_c, ravel_c. rewrite rev_involutive. apply ravel_unravel; [apply forall_rev; auto|]. rewrite prod_rev. auto. Qed.
Lemma unravel_c_in sh k : Forall (fun s => 0 < s) sh -> 0 <= k < prod sh -> in_shape sh (unravel_c sh k).
Proof.
  intros H Hk. unfold unravel_c. rewrite <- (rev_involutive sh) at 1. apply in_shape_rev. apply unravel_in; [apply forall_rev; auto|]. rewrite prod_rev. auto.
Qed.
Lemma all_pos sh : Forall (fun s => 0 <= s) sh -> prod sh <> 0 -> Forall (fun s => 0 < s) sh.
Proof. induction 1; [constructor|]. rewrite prod_cons. intros E. constructor; [destruct (Z.eq_dec x 0); [subst; lia|lia]|]. apply IHForall. intros E0. rewrite E0 in E. lia. Qed.
Lemma unsqueeze_id sh idx : Forall (fun s => s <> 1) sh -> length sh = length idx -> unsqueeze sh idx = idx.
Proof. intros H. revert idx. induction H; intros [|i idx] L; try discriminate; auto. cbn [unsqueeze]. destruct (Z.eqb_spec x 1); [contradiction|]. cbn. f_equal. auto. Qed.
Lemma squeezed_id sh : Forall (fun s => s <> 1) sh -> squeezed sh = sh.
Proof. induction 1; auto. cbn. destruct (Z.eqb_spec x 1); [contradiction|]. cbn. f_equal. auto. Qed.
Lemma unsqueeze_last sh idx : Forall (fun s => s <> 1) sh -> length sh = length idx -> unsqueeze (sh ++ [1]) idx = idx ++ [0].
Proof. intros H. revert idx. induction H; intros [|i idx] L; try discriminate; auto. cbn [unsqueeze app]. destruct (Z.eqb_spec x 1); [contradiction|]. cbn. f_equal. auto. Qed.
Lemma squeezed_last sh : Forall (fun s => s <> 1) sh -> squeezed (sh ++ [1]) = sh.
Proof. induction 1; auto. cbn. destruct (Z.eqb_spec x 1); [contradiction|]. cbn. f_equal. auto. Qed.
Lemma in_shape_length sh idx : in_shape sh idx -> length sh = length idx.
Proof. induction 1; cbn; auto. Qed.
Lemma in_shape_snoc sh k idx : in_shape (sh ++ [k]) idx -> exists i c, idx = i ++ [c] /\ in_shape sh i /\ 0 <= c < k.
Proof.
  intros H. apply Forall2_app_inv_l in H. destruct H as (i & l & H1 & H2 & ->). inversion H2 as [|? c ? l' Hc Hn]; subst. inversion Hn; subst. eauto 6.
Qed.

Section Vec.
Context {N : Num}.
Variable ty : types N.
Hypothesis Hty : types_ok ty.

Definition vec_values (A : nd N) (sh : list Z) (k : Z) : list N :=
  flatten (k :: sh) (fun j => nd_get A (unravel_c (nd_shape A) (ravel_c (sh ++ [k]) (tl j ++ [hd 0 j])))).
Theorem vec_roundtrip A sh k : Forall (fun s => 2 <= s) sh -> Forall (fun s => 0 <= s) (nd_shape A) -> prod (nd_shape A) = k * prod sh ->
  fits (t_int ty) (prod (nd_shape A)) -> (forall idx, in_shape (nd_shape A) idx -> lossless (t_scal ty) (nd_get A idx)) ->
  exists bs B, write_vec ty A (Some sh) = Ok bs /\ read_vec ty bs (Some sh) = Ok B /\
    nd_shape B = (if k =? 1 then sh else sh ++ [k]) /\ entries B = entries A /\
    forall pre post, bs = pre ++ post -> post <> [] -> exists e, read_vec ty pre (Some sh) = Raise e.
Proof.
  intros Hsh HA Ek HF HL. assert (Psh : Forall (fun s => 0 < s) sh) by (apply forall_pos; auto). pose proof (prod_pos _ Psh) as P.
  assert (N1 : Forall (fun s => s <> 1) sh) by (eapply Forall_impl; [|exact Hsh]; cbn; intros; lia).
  assert (Hk : 0 <= k) by (pose proof (prod_nonneg _ HA); nia).
  assert (LS : forall t, t = k * prod sh -> last_size t sh = Ok k).
  { intros t ->. unfold last_size. destruct (Z.ltb_spec 0 (prod sh)); [|lia]. rewrite Z_mod_mult. cbn [andb Z.eqb]. rewrite Z_div_mult by lia. reflexivity. }
  set (l := vec_values A sh k).
  assert (Ll : Z.of_nat (length l) = prod (nd_shape A)).
  { unfold l, vec_values. rewrite flatten_length, prod_cons, Z2Nat.id by nia. lia. }
  assert (HLl : Forall (lossless (t_scal ty)) l).
  { destruct (Z.eq_dec k 0) as [->|].
    - unfold l, vec_values, flatten. rewrite prod_cons, Z.mul_0_l. constructor.
    - apply flatten_in; [constructor; [lia|auto]|]. intros j Hj. apply in_shape_cons in Hj. destruct Hj as (c & idx & -> & Hc & I). cbn [hd tl].
      apply HL. assert (PA : Forall (fun s => 0 < s) (nd_shape A)) by (apply all_pos; auto; nia). apply unravel_c_in; auto.
      rewrite Ek, Z.mul_comm. replace (prod sh * k) with (prod (sh ++ [k])) by (rewrite prod_app; unfold prod at 2; cbn [fold_right]; lia).
      apply ravel_c_range. apply Forall2_app; auto. }
  assert (W : write_vec ty A (Some sh) = Ok (int_bytes (t_int ty) VEC_ID ++ int_bytes (t_int ty) (Z.of_nat (length l)) ++ flat_map (c_enc (t_scal ty)) l)).
  { unfold write_vec. rewrite (LS _ Ek). cbn [bind]. unfold put_int. rewrite !be_int, <- Ll. reflexivity. }
  assert (PR : parses (get* clsid := get_int ty in must* assert (clsid =? VEC_ID) in get* n := get_int ty in get (t_scal ty) n)
     (int_bytes (t_int ty) VEC_ID ++ int_bytes (t_int ty) (Z.of_nat (length l)) ++ flat_map (c_enc (t_scal ty)) l) l).
  { destruct Hty as (T1 & T2 & T3). eapply parses_bind; [apply parses_int; auto; apply fits_4; unfold VEC_ID; lia|]. apply parses_must; [reflexivity|].
    eapply parses_bind; [apply parses_int; auto; rewrite Ll; exact HF|]. apply parses_get; auto. }
  pose proof (proj1 PR []) as E. rewrite app_nil_r in E.
  eexists. exists (let A' := mkNd (sh ++ [k]) (fun idx => nth (Z.to_nat (ravel (k :: sh) (last idx 0 :: removelast idx))) l (n0 N)) in
     mkNd (squeezed (nd_shape A')) (fun idx => nd_get A' (unsqueeze (nd_shape A') idx))).
  split; [exact W|]. split.
  { unfold read_vec. rewrite E. cbn [bind fst]. rewrite (LS (Z.of_nat (length l))) by lia. cbn [bind]. unfold reshape_f. rewrite Ll, prod_cons, <- Ek, Z.eqb_refl. reflexivity. }
  cbv zeta. cbn [nd_shape nd_get].
  assert (V : forall i c, in_shape sh i -> 0 <= c < k -> nth (Z.to_nat (ravel (k :: sh) (c :: i))) l (n0 N) = nd_get A (unravel_c (nd_shape A) (ravel_c (sh ++ [k]) (i ++ [c])))).
  { intros i c I Hc. unfold l, vec_values. rewrite flatten_nth by (constructor; auto). reflexivity. }
  assert (SH : squeezed (sh ++ [k]) = if k =? 1 then sh else sh ++ [k]).
  { destruct (Z.eqb_spec k 1) as [->|]; [apply squeezed_last; auto|apply squeezed_id; apply Forall_app; auto]. }
  split; [exact SH|]. split.
  - unfold entries. cbn [nd_shape nd_get]. rewrite SH.
    destruct (Z.eq_dec k 0) as [->|Nk].
    { assert (X1 : loops (sh ++ [0]) = []).
      { apply length_zero_iff_nil. apply Nat2Z.inj. rewrite loops_length by (apply Forall_app; split; [eapply Forall_impl; [|exact Hsh]; cbn; intros; lia|repeat constructor; lia]).
        rewrite prod_app. unfold prod at 2. cbn [fold_right]. lia. }
      assert (X2 : loops (nd_shape A) = []) by (apply length_zero_iff_nil; apply Nat2Z.inj; rewrite loops_length by auto; lia).
      change (0 =? 1) with false. cbv iota. rewrite X1, X2. reflexivity. }
    assert (PA : Forall (fun s => 0 < s) (nd_shape A)) by (apply all_pos; auto; nia).
    rewrite (loops_eq (nd_shape A)) by auto. rewrite map_map.
    assert (PS : prod (sh ++ [k]) = prod (nd_shape A)) by (rewrite prod_app, Ek; unfold prod at 2; cbn [fold_right]; lia).
    destruct (Z.eqb_spec k 1) as [->|].
    + rewrite loops_eq by auto. rewrite map_map. replace (prod sh) with (prod (nd_shape A)) by lia. apply map_ext_in. intros j Hj. apply in_zseq in Hj.
      assert (I : in_shape sh (unravel_c sh j)) by (apply unravel_c_in; auto; lia).
      rewrite unsqueeze_last by (auto; apply in_shape_length; auto). rewrite last_last, removelast_last, V by (auto; lia). f_equal. f_equal.
      unfold ravel_c. rewrite !rev_app_distr. cbn [rev app ravel]. fold (ravel_c sh (unravel_c sh j)). rewrite ravel_unravel_c by (auto; lia). lia.
    + assert (PP : Forall (fun s => 0 < s) (sh ++ [k])) by (apply Forall_app; split; auto; repeat constructor; lia).
      rewrite loops_eq by auto. rewrite map_map, PS. apply map_ext_in. intros j Hj. apply in_zseq in Hj.
      assert (I : in_shape (sh ++ [k]) (unravel_c (sh ++ [k]) j)) by (apply unravel_c_in; auto; lia).
      rewrite unsqueeze_id by (try apply in_shape_length; auto; apply Forall_app; auto).
      destruct (in_shape_snoc _ _ _ I) as (i & c & Ei & Ii & Hc). rewrite Ei, last_last, removelast_last, V by auto. rewrite <- Ei.
      rewrite ravel_unravel_c by (auto; lia). reflexivity.
  - intros pre post Ep Hp. destruct (proj2 PR pre post Ep Hp) as [e Ee]. exists e. unfold read_vec. rewrite Ee. reflexivity.
Qed.
(** Arrays of the same shape with the same entries in order are equal. *)
Lemma entries_eq (A B : nd N) : nd_shape A = nd_shape B -> Forall (fun s => 0 <= s) (nd_shape A) -> entries A = entries B ->
  forall idx, in_shape (nd_shape A) idx -> nd_get A idx = nd_get B idx.
Proof.
  intros ES H E idx I. unfold entries in E. rewrite <- ES in E.
  assert (In idx (loops (nd_shape A))).
  { assert (PA : Forall (fun s => 0 < s) (nd_shape A)) by (clear - I; induction I; constructor; auto; lia).
    rewrite loops_eq by auto. apply in_map_iff. exists (ravel_c (nd_shape A) idx). split; [apply unravel_ravel_c; auto|]. apply in_zseq.
    pose proof (ravel_c_range _ _ I). lia. }
  clear - E H0. revert H0. induction (loops (nd_shape A)) as [|x l IH]; intros Hin; [contradiction|]. cbn in E. injection E as E1 E2.
  destruct Hin as [->|Hin]; auto.
Qed.
End Vec.

(** ** Matrices *)
Lemma be_unbe bs : Forall (fun b => 0 <= b < 256) bs -> be (length bs) (unbe bs) = bs.
Proof.
  induction bs as [|b bs IH] using rev_ind; intros H; [reflexivity|]. apply Forall_app in H. destruct H as [H1 H2]. inversion H2; subst.
  rewrite app_length. cbn [length]. rewrite Nat.add_1_r. cbn [be]. unfold unbe. rewrite fold_left_app. cbn [fold_left]. fold (unbe bs).
  rewrite Z.div_add_l, Z.div_small, Z.add_0_r by lia. rewrite IH by auto. f_equal. f_equal. rewrite Z.add_comm, Z_mod_plus_full. apply Z.mod_small. lia.
Qed.
Lemma unbe_range bs : Forall (fun b => 0 <= b < 256) bs -> 0 <= unbe bs < 2 ^ (8 * Z.of_nat (length bs)).
Proof.
  intros H. rewrite <- (be_unbe bs H) at 1 2. rewrite unbe_be. apply Z.mod_pos_bound. apply Z.pow_pos_nonneg; lia.
Qed.
Lemma be_mod w x : be w (x mod 2 ^ (8 * Z.of_nat w)) = be w x.
Proof.
  revert x. induction w; intros x; [reflexivity|]. cbn [be]. rewrite pow8. assert (0 < 2 ^ (8 * Z.of_nat w)) by (apply Z.pow_pos_nonneg; lia).
  rewrite Z.rem_mul_r by lia. f_equal.
  - rewrite <- (IHw (x / 256)). f_equal. rewrite Z.mul_comm, Z.div_add, Z.div_small by (try lia; apply Z.mod_pos_bound; lia). lia.
  - f_equal. rewrite Z.mul_comm, Z_mod_plus_full. apply Z.mod_mod. lia.
Qed.
Lemma sgn_spec w x : (1 <= w)%nat -> 0 <= x < 2 ^ (8 * Z.of_nat w) -> fits w (sgn w x) /\ be w (sgn w x) = be w x.
Proof.
  intros Hw Hx. unfold sgn, fits. set (h := 2 ^ (8 * Z.of_nat w - 1)).
  assert (E : 2 ^ (8 * Z.of_nat w) = 2 * h).
  { unfold h. replace (8 * Z.of_nat w) with (1 + (8 * Z.of_nat w - 1)) at 1 by lia. rewrite Z.pow_add_r by lia. reflexivity. }
  rewrite E in *. replace (2 * h / 2) with h by (rewrite Z.mul_comm, Z.div_mul; lia).
  destruct (Z.ltb_spec x h); [split; [lia|reflexivity]|]. split; [lia|].
  rewrite <- (be_mod w (x - 2 * h)), <- (be_mod w x), E. f_equal. replace (x - 2 * h) with (x + (-1) * (2 * h)) by lia. apply Z_mod_plus_full.
Qed.
Section Mat.
Context {N : Num}.
Variable ty : types N.
Hypothesis Hty : types_ok ty.
Let w := t_int ty.
Lemma dec_int_at bs : length bs = w -> Forall (fun b => 0 <= b < 256) bs -> fits w (dec_int ty bs) /\ bs = int_bytes w (dec_int ty bs).
Proof.
  intros L H. destruct Hty as (T1 & _). pose proof (unbe_range bs H) as R. rewrite L in R. destruct (sgn_spec w (unbe bs)) as [S1 S2]; [unfold w; lia|auto|].
  unfold dec_int. fold w. split; auto. rewrite <- be_int, S2, <- L. symmetry. apply be_unbe. auto.
Qed.
Lemma skipn_add {A : Type} a b (l : list A) : skipn a (skipn b l) = skipn (b + a) l.
Proof. revert l. induction b; intros l; [reflexivity|]. destruct l; [rewrite !skipn_nil; reflexivity|]. cbn. apply IHb. Qed.
Lemma items_nth n bs k : (k < n)%nat -> nth k (items w (dec_int ty) n bs) 0 = dec_int ty (firstn w (skipn (k * w) bs)).
Proof.
  revert bs k. induction n; intros bs k Hk; [lia|]. destruct k; [reflexivity|]. cbn [items nth]. rewrite IHn by lia. rewrite skipn_add. do 3 f_equal. 
Qed.
Lemma forall_skipn {A : Type} (P : A -> Prop) k l : Forall P l -> Forall P (skipn k l).
Proof. revert l. induction k; intros l H; auto. destruct H; cbn; auto. Qed.
Lemma forall_firstn {A : Type} (P : A -> Prop) k l : Forall P l -> Forall P (firstn k l).
Proof. revert l. induction k; intros l H; [constructor|]. destruct H; cbn; auto. Qed.
(** Reading integers: what comes out is what stands in the file. *)
Lemma get_ints_at file off count l rest : Forall (fun b => 0 <= b < 256) file -> get_ints ty count (skipn (off * w) file) = Ok (l, rest) ->
  rest = skipn ((off + length l) * w) file /\ (0 <= count -> (length l <= Z.to_nat count)%nat) /\
  forall k, (k < length l)%nat -> int_at w file (off + k) (nth k l 0).
Proof.
  intros HB E. destruct Hty as (T1 & _). unfold get_ints, fromfile in E. fold w in E.
  set (n := if count <? 0 then (length (skipn (off * w) file) / w)%nat else Nat.min (Z.to_nat count) (length (skipn (off * w) file) / w)) in E.
  injection E as <- <-. rewrite items_length, skipn_add. split; [f_equal; lia|]. split.
  { intros Hc. unfold n. destruct (Z.ltb_spec count 0); lia. }
  intros k Hk. rewrite items_nth by auto. rewrite skipn_add. replace (off * w + k * w)%nat with ((off + k) * w)%nat by lia.
  assert (Hn : (n * w <= length (skipn (off * w) file))%nat).
  { assert (n <= length (skipn (off * w) file) / w)%nat by (unfold n; destruct (count <? 0); lia).
    pose proof (Nat.mul_div_le (length (skipn (off * w) file)) w). unfold w in *. nia. }
  rewrite skipn_length in Hn. assert (L : length (firstn w (skipn ((off + k) * w) file)) = w).
  { rewrite firstn_length, skipn_length. assert (0 < w)%nat by (unfold w; lia). nia. }
  destruct (dec_int_at _ L) as [D1 D2]; [apply forall_firstn, forall_skipn; auto|]. split; auto.
Qed.
Lemma get_int_at file off x rest : Forall (fun b => 0 <= b < 256) file -> get_int ty (skipn (off * w) file) = Ok (x, rest) ->
  rest = skipn ((off + 1) * w) file /\ int_at w file off x.
Proof.
  intros HB E. unfold get_int, rbind in E. destruct (get_ints ty 1 (skipn (off * w) file)) as [[l r]|] eqn:El; [|discriminate].
  destruct (get_ints_at file off 1 l r HB El) as (E1 & E2 & E3). destruct l as [|y l]; [discriminate|]. cbn in E. injection E as <- <-.
  specialize (E2 ltac:(lia)). cbn in E2. assert (length l = 0)%nat by lia. destruct l; [|discriminate]. split; [exact E1|].
  replace off with (off + 0)%nat at 1 by lia. apply (E3 0%nat). cbn. lia.
Qed.
Lemma rbind_ok {A B : Type} (r : rd A) (f : A -> rd B) bs v rest : rbind r f bs = Ok (v, rest) -> exists a bs', r bs = Ok (a, bs') /\ f a bs' = Ok (v, rest).
Proof. unfold rbind. destruct (r bs) as [[a bs']|]; [eauto|discriminate]. Qed.
Lemma must_ok {B : Type} (r : res unit) (f : rd B) bs v rest : rbind (rlift r) (fun _ => f) bs = Ok (v, rest) -> r = Ok tt /\ f bs = Ok (v, rest).
Proof. unfold rbind, rlift. destruct r as [[]|]; cbn; [auto|discriminate]. Qed.
Lemma cumsum_length a l : length (cumsum ty a l) = length l.
Proof. revert a. induction l; intros; cbn; auto. Qed.
Lemma firstn_S {A : Type} i (l : list A) d : (i < length l)%nat -> firstn (S i) l = firstn i l ++ [nth i l d].
Proof. revert l. induction i; intros [|x l] H; cbn in *; try lia; auto. f_equal. apply IHi. lia. Qed.
Lemma sum_app a b : sum (a ++ b) = sum a + sum b.
Proof. unfold sum. induction a; cbn; auto. rewrite IHa. lia. Qed.
Lemma cumsum_nth l : forall a i, (i < length l)%nat -> nth (S i) (a :: cumsum ty a l) 0 = wrap w (nth i (a :: cumsum ty a l) 0 + nth i l 0).
Proof.
  induction l as [|x l IH]; intros a i Hi; [cbn in Hi; lia|]. destruct i; [reflexivity|].
  apply (IH (wrap w (a + x)) i). cbn in Hi; lia.
Qed.
Lemma last_nth (l : list Z) d : l <> [] -> last l d = nth (length l - 1) l d.
Proof.
  induction l as [|x l IH]; [congruence|]. intros _. destruct l as [|y l]; [reflexivity|].
  change (last (x :: y :: l) d) with (last (y :: l) d). rewrite IH by discriminate. cbn [length]. replace (S (S (length l)) - 1)%nat with (S (length l)) by lia.
  replace (S (length l) - 1)%nat with (length l) by lia. reflexivity.
Qed.
Theorem mat_csr file m : Forall (fun b => 0 <= b < 256) file -> read_mat ty file = Ok m ->
  let M := Z.to_nat (m_rows m) in let AI := fun i => nth i (m_ai m) 0 in
  exists nz rownz, 0 <= m_rows m /\ 0 <= nz /\ length rownz = M /\
    int_at w file 0 MAT_ID /\ int_at w file 1 (m_rows m) /\ int_at w file 2 (m_cols m) /\ int_at w file 3 nz /\
    (forall i, (i < M)%nat -> int_at w file (4 + i) (nth i rownz 0)) /\
    length (m_ai m) = S M /\ AI 0%nat = 0 /\ AI M = nz /\
    (forall i, (i <= M)%nat -> (forall j, (j <= i)%nat -> fits w (sum (firstn j rownz))) -> AI i = sum (firstn i rownz)) /\
    Z.of_nat (length (m_aj m)) = nz /\ Z.of_nat (length (m_av m)) = nz /\
    forall k, (k < length (m_aj m))%nat -> int_at w file (4 + M + k) (nth k (m_aj m) 0).
Proof.
  intros HB E. unfold read_mat in E.
  match type of E with bind ?r _ = _ => destruct r as [[v rest]|] eqn:Er; [|discriminate] end. cbn [bind fst] in E. injection E as ->.
  apply rbind_ok in Er. destruct Er as (id & b1 & E1 & Er). apply (get_int_at file 0) in E1; auto. destruct E1 as [-> I0].
  apply must_ok in Er. destruct Er as [Eid Er]. assert (id = MAT_ID) as -> by (destruct (Z.eqb_spec id MAT_ID); [auto|discriminate]).
  apply rbind_ok in Er. destruct Er as (h & b2 & E2 & Er). apply get_ints_at in E2; auto. destruct E2 as (-> & L3 & I3).
  destruct h as [|M [|NN [|nz [|? ?]]]]; try discriminate. cbn [length] in *.
  pose proof (I3 0%nat ltac:(lia)) as IM. pose proof (I3 1%nat ltac:(lia)) as IN. pose proof (I3 2%nat ltac:(lia)) as IZ. cbn [nth Nat.add] in IM, IN, IZ.
  apply must_ok in Er. destruct Er as [_ Er].
  apply rbind_ok in Er. destruct Er as (rownz & b3 & E4 & Er). apply get_ints_at in E4; auto. destruct E4 as (-> & _ & I4).
  apply must_ok in Er. destruct Er as [EM Er]. destruct (Z.eqb_spec (Z.of_nat (length rownz)) M) as [EqM|]; [|discriminate].
  apply must_ok in Er. destruct Er as [EL Er]. destruct (Z.eqb_spec (last (0 :: cumsum ty 0 rownz) 0) nz) as [Eqz|]; [|discriminate].
  apply rbind_ok in Er. destruct Er as (AJ & b5 & E5 & Er). apply get_ints_at in E5; auto. destruct E5 as (-> & _ & I5).
  apply must_ok in Er. destruct Er as [EJ Er]. destruct (Z.eqb_spec (Z.of_nat (length AJ)) nz) as [EqJ|]; [|discriminate].
  apply rbind_ok in Er. destruct Er as (AV & b6 & E6 & Er). unfold rret in Er. injection Er as <- _. cbn [m_rows m_cols m_ai m_aj m_av].
  unfold get in E6. apply rbind_ok in E6. destruct E6 as (AV' & b7 & E7 & E6). apply must_ok in E6. destruct E6 as [EV E6]. unfold rret in E6. injection E6 as -> _.
  destruct (Z.eqb_spec (Z.of_nat (length AV)) nz) as [EqV|]; [|discriminate].
  exists nz, rownz. assert (EMn : Z.to_nat M = length rownz) by lia. rewrite EMn. cbn [Nat.add] in *.
  repeat (split; [first [assumption|lia|reflexivity]|]).
  split; [cbn [length]; rewrite cumsum_length; reflexivity|]. split; [reflexivity|]. split.
  { rewrite <- Eqz, last_nth by discriminate. cbn [length]. rewrite cumsum_length. f_equal. lia. }
  split.
  - intros i. induction i; intros Hi HF; [reflexivity|]. rewrite cumsum_nth by lia. rewrite IHi by (try lia; intros; apply HF; lia).
    rewrite (firstn_S i rownz 0) by lia. rewrite sum_app. replace (sum [nth i rownz 0]) with (nth i rownz 0) by (unfold sum; cbn; lia).
    apply wrap_fits; [destruct Hty; unfold w; lia|]. specialize (HF (S i) ltac:(lia)). rewrite (firstn_S i rownz 0), sum_app in HF by lia.
    replace (sum [nth i rownz 0]) with (nth i rownz 0) in HF by (unfold sum; cbn; lia). exact HF.
  - repeat (split; [assumption|]). exact I5.
Qed.
End Mat.
