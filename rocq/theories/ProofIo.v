(** Bytes, order of array entries, and readers. *)
From Coq Require Import ZArith List Bool Lia.
From Verif Require Import Num ModelNurbs ModelCad ModelIo SpecIo.
Import ListNotations.
Local Open Scope Z_scope.

(** ** Integers *)
Lemma zseq_S n lo : zseq (S n) lo = zseq n lo ++ [lo + Z.of_nat n].
Proof.
  revert lo. induction n; intros lo; [cbn; f_equal; lia|].
  change (zseq (S (S n)) lo) with (lo :: zseq (S n) (lo + 1)). rewrite IHn. cbn [zseq app]. do 2 f_equal. f_equal. lia.
Qed.
Lemma zseq_shift n lo k : zseq n (lo + k) = map (fun x => x + k) (zseq n lo).
Proof. revert lo. induction n; intros lo; cbn; auto. f_equal. rewrite <- IHn. f_equal. lia. Qed.
Lemma in_zseq n lo x : In x (zseq n lo) <-> lo <= x < lo + Z.of_nat n.
Proof. revert lo. induction n; intros lo; [cbn; lia|]. cbn [zseq In]. rewrite IHn. lia. Qed.
Lemma zseq_length n lo : length (zseq n lo) = n.
Proof. revert lo. induction n; intros lo; cbn; auto. Qed.
Lemma zseq_app n m lo : zseq (n + m) lo = zseq n lo ++ zseq m (lo + Z.of_nat n).
Proof. revert lo. induction n; intros lo; cbn [Nat.add zseq app]; [f_equal; lia|]. f_equal. rewrite IHn. do 2 f_equal. lia. Qed.
Lemma nth_zseq n lo k d : (k < n)%nat -> nth k (zseq n lo) d = lo + Z.of_nat k.
Proof. revert lo k. induction n; intros lo k H; [lia|]. destruct k; cbn [zseq nth]; [lia|]. rewrite IHn by lia. lia. Qed.

Lemma be_int w x : be w x = int_bytes w x.
Proof.
  revert x. induction w; intros x; [reflexivity|]. cbn [be]. rewrite IHw. unfold int_bytes.
  change (zseq (S w) 0) with (0 :: zseq w (0 + 1)). cbn [rev]. rewrite map_app. f_equal; [|cbn [map]; rewrite Z.pow_0_r, Z.div_1_r; auto].
  rewrite zseq_shift, <- map_rev, map_map. apply map_ext_in. intros k Hk. apply in_rev, in_zseq in Hk.
  rewrite Z.pow_add_r, Z.mul_comm, <- Z.div_div by lia. reflexivity.
Qed.
Lemma be_length w x : length (be w x) = w.
Proof. revert x. induction w; intros x; cbn; auto. rewrite app_length, IHw. cbn. lia. Qed.
Lemma pow8 w : 2 ^ (8 * Z.of_nat (S w)) = 256 * 2 ^ (8 * Z.of_nat w).
Proof. replace (8 * Z.of_nat (S w)) with (8 + 8 * Z.of_nat w) by lia. rewrite Z.pow_add_r by lia. reflexivity. Qed.
Lemma unbe_be w x : unbe (be w x) = x mod 2 ^ (8 * Z.of_nat w).
Proof.
  unfold unbe. revert x. induction w; intros x; [cbn [be fold_left]; change (8 * Z.of_nat 0) with 0; cbn; symmetry; apply Z.mod_1_r|].
  cbn [be]. rewrite fold_left_app, IHw. cbn [fold_left]. rewrite pow8.
  assert (0 < 2 ^ (8 * Z.of_nat w)) by (apply Z.pow_pos_nonneg; lia).
  rewrite Z.rem_mul_r by lia. lia.
Qed.
Lemma sgn_fits w x : (1 <= w)%nat -> fits w x -> sgn w (x mod 2 ^ (8 * Z.of_nat w)) = x.
Proof.
  intros Hw [H1 H2]. unfold sgn. set (h := 2 ^ (8 * Z.of_nat w - 1)) in *.
  assert (E : 2 ^ (8 * Z.of_nat w) = 2 * h).
  { unfold h. replace (8 * Z.of_nat w) with (1 + (8 * Z.of_nat w - 1)) at 1 by lia. rewrite Z.pow_add_r by lia. reflexivity. }
  rewrite E. replace (2 * h / 2) with h by (rewrite Z.mul_comm, Z.div_mul; lia).
  destruct (Z_lt_le_dec x 0).
  - replace (x mod (2 * h)) with (x + 2 * h); [destruct (Z.ltb_spec (x + 2 * h) h); lia|].
    rewrite <- (Z_mod_plus_full x 1 (2 * h)). rewrite Z.mod_small; lia.
  - rewrite Z.mod_small by lia. destruct (Z.ltb_spec x h); lia.
Qed.
Lemma wrap_fits w x : (1 <= w)%nat -> fits w x -> wrap w x = x.
Proof. apply sgn_fits. Qed.
Lemma fits_small w x y : fits w y -> 0 <= x <= y -> fits w x.
Proof. unfold fits. intros [? ?] ?. assert (0 <= 2 ^ (8 * Z.of_nat w - 1)) by (apply Z.pow_nonneg; lia). lia. Qed.
Lemma fits_4 w x : (4 <= w)%nat -> -2147483648 <= x < 2147483648 -> fits w x.
Proof.
  intros Hw Hx. unfold fits. assert (2 ^ 31 <= 2 ^ (8 * Z.of_nat w - 1)) by (apply Z.pow_le_mono_r; lia).
  change (2 ^ 31) with 2147483648 in H. lia.
Qed.

(** ** Order of entries *)
Lemma prod_cons s sh : prod (s :: sh) = s * prod sh.
Proof. reflexivity. Qed.
Lemma prod_pos sh : Forall (fun s => 0 < s) sh -> 0 < prod sh.
Proof. induction 1; [cbn; lia|]. rewrite prod_cons. lia. Qed.
Lemma prod_nonneg sh : Forall (fun s => 0 <= s) sh -> 0 <= prod sh.
Proof. induction 1; [cbn; lia|]. rewrite prod_cons. apply Z.mul_nonneg_nonneg; auto. Qed.
Lemma ravel_range sh idx : in_shape sh idx -> 0 <= ravel sh idx < prod sh.
Proof.
  induction 1 as [|s i sh idx Hi H IH]; [cbn; lia|]. cbn [ravel]. rewrite prod_cons. nia.
Qed.
Lemma unravel_ravel sh idx : in_shape sh idx -> unravel sh (ravel sh idx) = idx.
Proof.
  induction 1 as [|s i sh idx Hi H IH]; [reflexivity|]. cbn [ravel unravel].
  pose proof (ravel_range _ _ H). f_equal.
  - rewrite Z.mul_comm, Z_mod_plus_full, Z.mod_small; lia.
  - rewrite <- IH at 2. f_equal. rewrite Z.mul_comm, Z.div_add, Z.div_small; lia.
Qed.
Lemma unravel_in sh k : Forall (fun s => 0 < s) sh -> 0 <= k < prod sh -> in_shape sh (unravel sh k).
Proof.
  intros H. revert k. induction H as [|s sh Hs H IH]; intros k Hk; [constructor|]. rewrite prod_cons in Hk. cbn [unravel]. constructor.
  - apply Z.mod_pos_bound. lia.
  - apply IH. split; [apply Z.div_pos; lia|apply Z.div_lt_upper_bound; lia].
Qed.
Lemma ravel_unravel sh k : Forall (fun s => 0 < s) sh -> 0 <= k < prod sh -> ravel sh (unravel sh k) = k.
Proof.
  intros H. revert k. induction H as [|s sh Hs H IH]; intros k Hk; [cbn in *; lia|]. rewrite prod_cons in Hk. cbn [unravel ravel].
  rewrite IH; [|split; [apply Z.div_pos; lia|apply Z.div_lt_upper_bound; lia]]. pose proof (Z.div_mod k s). lia.
Qed.
Lemma flatten_length {A : Type} sh (f : list Z -> A) : length (flatten sh f) = Z.to_nat (prod sh).
Proof. unfold flatten. rewrite map_length. apply zseq_length. Qed.
Lemma flatten_nth {A : Type} sh (f : list Z -> A) idx d : in_shape sh idx -> nth (Z.to_nat (ravel sh idx)) (flatten sh f) d = f idx.
Proof.
  intros H. pose proof (ravel_range _ _ H). unfold flatten.
  rewrite (nth_indep _ d (f (unravel sh 0))) by (rewrite map_length, zseq_length; lia).
  rewrite (map_nth (fun k => f (unravel sh k))), nth_zseq by lia. f_equal. rewrite Z2Nat.id by lia. apply unravel_ravel; auto.
Qed.
Lemma flatten_in {A : Type} sh (f : list Z -> A) (P : A -> Prop) : Forall (fun s => 0 < s) sh ->
  (forall idx, in_shape sh idx -> P (f idx)) -> Forall P (flatten sh f).
Proof.
  intros Hs H. apply Forall_forall. intros x Hx. apply in_map_iff in Hx. destruct Hx as (k & <- & Hk). apply in_zseq in Hk.
  apply H. apply unravel_in; auto. lia.
Qed.
Lemma zseq_blocks s n : (0 < s)%nat -> zseq (s * n) 0 = flat_map (fun k => map (fun i => i + Z.of_nat s * k) (zseq s 0)) (zseq n 0).
Proof.
  intros Hs. induction n; [rewrite Nat.mul_0_r; reflexivity|].
  rewrite zseq_S, flat_map_app, <- IHn. cbn [flat_map]. rewrite app_nil_r. rewrite Nat.mul_succ_r, zseq_app. f_equal.
  rewrite <- zseq_shift. f_equal. lia.
Qed.
Lemma flat_map_map {A B C : Type} (f : B -> list C) (g : A -> B) l : flat_map f (map g l) = flat_map (fun x => f (g x)) l.
Proof. induction l; cbn; auto. rewrite IHl. auto. Qed.
Lemma map_flat_map {A B C : Type} (f : B -> C) (g : A -> list B) l : map f (flat_map g l) = flat_map (fun x => map f (g x)) l.
Proof. induction l; cbn; auto. rewrite map_app, IHl. auto. Qed.
Lemma flat_map_flat_map {A B C : Type} (f : B -> list C) (g : A -> list B) l : flat_map f (flat_map g l) = flat_map (fun x => flat_map f (g x)) l.
Proof. induction l; cbn; auto. rewrite flat_map_app, IHl. auto. Qed.
(** Fortran order is the order of nested loops. *)
Lemma grid_order_eq sh : Forall (fun s => 0 < s) sh -> grid_order sh = map (unravel sh) (zseq (Z.to_nat (prod sh)) 0).
Proof.
  induction 1 as [|s sh Hs H IH]; [reflexivity|]. cbn [grid_order]. rewrite IH, flat_map_map.
  rewrite prod_cons, Z2Nat.inj_mul by (pose proof (prod_pos _ H); lia).
  rewrite zseq_blocks, map_flat_map by lia. apply flat_map_ext. intros k. rewrite map_map. rewrite Z2Nat.id by lia.
  apply map_ext_in. intros i Hi. apply in_zseq in Hi. cbn [unravel]. f_equal.
  - rewrite Z.mul_comm, Z_mod_plus_full, Z.mod_small; lia.
  - f_equal. rewrite Z.mul_comm, Z.div_add, Z.div_small; lia.
Qed.
Lemma grid_order_in sh idx : Forall (fun s => 0 < s) sh -> In idx (grid_order sh) <-> in_shape sh idx.
Proof.
  intros H. rewrite grid_order_eq by auto. rewrite in_map_iff. split.
  - intros (k & <- & Hk). apply in_zseq in Hk. apply unravel_in; auto. lia.
  - intros I. exists (ravel sh idx). split; [apply unravel_ravel; auto|]. apply in_zseq. pose proof (ravel_range _ _ I). lia.
Qed.
Lemma flatten_grid {A : Type} k sh (f : list Z -> Z -> A) : Forall (fun s => 0 < s) sh -> 0 <= k ->
  flatten (k :: sh) (fun j => f (tl j) (hd 0 j)) = flat_map (fun idx => map (f idx) (zseq (Z.to_nat k) 0)) (grid_order sh).
Proof.
  intros H Hk. destruct (Z.eq_dec k 0) as [->|].
  - unfold flatten. rewrite prod_cons, Z.mul_0_l. cbn. induction (grid_order sh); cbn; auto.
  - assert (H' : Forall (fun s => 0 < s) (k :: sh)) by (constructor; [lia|auto]).
    unfold flatten. rewrite <- (map_map (unravel (k :: sh)) (fun j => f (tl j) (hd 0 j))). rewrite <- grid_order_eq by auto.
    cbn [grid_order]. rewrite map_flat_map. apply flat_map_ext. intros idx. rewrite map_map. reflexivity.
Qed.

(** ** Readers *)
(** [parses r bs x]: r reads exactly the bytes [bs] and returns x; it raises on a strict prefix. *)
Definition parses {A : Type} (r : rd A) (bs : list Z) (x : A) : Prop :=
  (forall rest, r (bs ++ rest) = Ok (x, rest)) /\ (forall pre post, bs = pre ++ post -> post <> [] -> exists e, r pre = Raise e).
Lemma parses_ret {A : Type} (x : A) : parses (rret x) [] x.
Proof. split; [reflexivity|]. intros pre post E H. symmetry in E. apply app_eq_nil in E. tauto. Qed.
Lemma parses_bind {A B : Type} (r : rd A) (f : A -> rd B) b1 b2 x y : parses r b1 x -> parses (f x) b2 y -> parses (rbind r f) (b1 ++ b2) y.
Proof.
  intros [R1 C1] [R2 C2]. split.
  - intros rest. unfold rbind. rewrite <- app_assoc, R1. apply R2.
  - intros pre post E H. unfold rbind. apply app_eq_app in E. destruct E as [l [[E1 E2]|[E1 E2]]].
    + destruct l as [|z l].
      * rewrite app_nil_r in E1. subst b1. pose proof (R1 []) as E. rewrite app_nil_r in E. rewrite E. apply (C2 [] b2); auto.
        cbn in E2. congruence.
      * destruct (C1 pre (z :: l) E1) as [e ->]; [discriminate|]. eauto.
    + subst pre. rewrite R1. eapply C2; eauto.
Qed.
Lemma parses_must {B : Type} (r : res unit) (f : rd B) b y : r = Ok tt -> parses f b y -> parses (rbind (rlift r) (fun _ => f)) b y.
Proof. intros -> H. change b with ([] ++ b). eapply parses_bind; [|exact H]. exact (parses_ret tt). Qed.
Lemma parses_bind_nil {A B : Type} (r : rd A) (f : A -> rd B) b x y : parses r b x -> parses (f x) [] y -> parses (rbind r f) b y.
Proof. intros. rewrite <- (app_nil_r b). eapply parses_bind; eauto. Qed.

Lemma items_length {A : Type} w (dec : list Z -> A) n bs : length (items w dec n bs) = n.
Proof. revert bs. induction n; intros bs; cbn; auto. Qed.
Lemma items_enc {A : Type} w (dec : list Z -> A) (enc : A -> list Z) l rest :
  Forall (fun x => length (enc x) = w /\ dec (enc x) = x) l -> items w dec (length l) (flat_map enc l ++ rest) = l.
Proof.
  induction 1 as [|x l [E1 E2] H IH]; [reflexivity|]. cbn [length items flat_map]. rewrite <- app_assoc.
  rewrite <- E1 at 1. rewrite firstn_app, firstn_all, Nat.sub_diag. cbn [firstn]. rewrite app_nil_r, E2. f_equal.
  rewrite <- E1. rewrite skipn_app, skipn_all, Nat.sub_diag. cbn [skipn app]. rewrite E1. exact IH.
Qed.
Lemma flat_map_len {A : Type} w (enc : A -> list Z) l : Forall (fun x => length (enc x) = w) l -> length (flat_map enc l) = (length l * w)%nat.
Proof. induction 1; cbn; auto. rewrite app_length, IHForall. lia. Qed.
Lemma skipn_app_len {A : Type} n (a b : list A) : length a = n -> skipn n (a ++ b) = b.
Proof. intros <-. rewrite skipn_app, skipn_all, Nat.sub_diag. reflexivity. Qed.
Lemma fromfile_enc {A : Type} w (dec : list Z -> A) (enc : A -> list Z) l rest : (0 < w)%nat ->
  Forall (fun x => length (enc x) = w /\ dec (enc x) = x) l ->
  fromfile w dec (Z.of_nat (length l)) (flat_map enc l ++ rest) = Ok (l, rest).
Proof.
  intros Hw H. assert (L : length (flat_map enc l) = (length l * w)%nat) by (apply flat_map_len; eapply Forall_impl; [|exact H]; cbn; tauto).
  unfold fromfile. destruct (Z.ltb_spec (Z.of_nat (length l)) 0); [lia|]. rewrite Nat2Z.id, app_length, L.
  replace (Nat.min (length l) ((length l * w + length rest) / w)) with (length l).
  - rewrite items_enc by auto. rewrite skipn_app_len by (symmetry; rewrite <- L; auto). reflexivity.
  - rewrite Nat.min_l; auto. apply Nat.div_le_lower_bound; lia.
Qed.
Lemma fromfile_short {A : Type} w (dec : list Z -> A) n bs : (0 < w)%nat -> (length bs < n * w)%nat ->
  exists l rest, fromfile w dec (Z.of_nat n) bs = Ok (l, rest) /\ (length l < n)%nat.
Proof.
  intros Hw H. unfold fromfile. destruct (Z.ltb_spec (Z.of_nat n) 0); [lia|]. rewrite Nat2Z.id. do 2 eexists. split; [reflexivity|].
  rewrite items_length. assert (length bs / w < n)%nat by (apply Nat.div_lt_upper_bound; lia). lia.
Qed.

Section Get.
Context {N : Num}.
Variable ty : types N.
Hypothesis Hty : types_ok ty.

Lemma parses_int x : fits (t_int ty) x -> parses (get_int ty) (int_bytes (t_int ty) x) x.
Proof.
  destruct Hty as (H4 & _ & _). intros F. rewrite <- be_int.
  assert (L : Forall (fun x => length (be (t_int ty) x) = t_int ty /\ dec_int ty (be (t_int ty) x) = x) [x]).
  { constructor; [|constructor]. split; [apply be_length|]. unfold dec_int. rewrite unbe_be. apply sgn_fits; auto. lia. }
  split.
  - intros rest. unfold get_int, get_ints, rbind. change 1 with (Z.of_nat (length [x])).
    replace (be (t_int ty) x ++ rest) with (flat_map (be (t_int ty)) [x] ++ rest) by (cbn; rewrite app_nil_r; auto).
    rewrite fromfile_enc by (auto; lia). reflexivity.
  - intros pre post E H. unfold get_int, get_ints, rbind. change 1 with (Z.of_nat 1).
    destruct (fromfile_short (t_int ty) (dec_int ty) 1 pre) as (l & rest & -> & Hl); [lia| |].
    + apply (f_equal (@length Z)) in E. rewrite be_length, app_length in E. destruct post; [congruence|]. cbn in E. lia.
    + destruct l; [|cbn in Hl; lia]. cbn. eauto.
Qed.
Lemma parses_get (c : codec N) n l : (0 < c_width c)%nat -> n = Z.of_nat (length l) -> Forall (lossless c) l -> parses (get c n) (flat_map (c_enc c) l) l.
Proof.
  intros Hw -> H. split.
  - intros rest. unfold get, rbind. rewrite fromfile_enc by auto. rewrite Z.eqb_refl. reflexivity.
  - intros pre post E Hp. unfold get, rbind.
    destruct (fromfile_short (c_width c) (c_dec c) (length l) pre) as (l' & rest & -> & Hl); auto.
    + apply (f_equal (@length Z)) in E. rewrite (flat_map_len (c_width c)), app_length in E by (eapply Forall_impl; [|exact H]; unfold lossless; tauto).
      destruct post; [congruence|]. cbn in E. lia.
    + destruct (Z.eqb_spec (Z.of_nat (length l')) (Z.of_nat (length l))); [lia|]. cbn. eauto.
Qed.
End Get.
