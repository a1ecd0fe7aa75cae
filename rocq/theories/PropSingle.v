(** PetIGA files in single precision (C108).  Vocabulary: SpecIo.v, SpecSingle.v. *)
From Coq Require Import ZArith Reals List Bool Lia Lra SpecFloat.
From Verif Require Import Num ModelNurbs ModelIo ModelFloat ModelSingle SpecIo SpecDouble SpecSingle ProofIo ProofIo2 ProofFloat ProofRound ProofRound2 ProofRound3 ProofSgl4 ExTac PropIo ProofIoSize.
Import ListNotations.
Local Open Scope Z_scope.

(** ** C108: PetIGA files in single precision *)
(** For every arithmetic and every format in which writing what was read gives the same bytes: the
    object read has the knots, the homogeneous coordinates written and the weights as the format
    stores them, the other coordinates zero; the quotients of the fields by the weight are stored. *)
Theorem C108_roundtrip : forall (N : Num) (junk : Z -> N) (ty : types N) nrb (fields : bool) (nsd : option Z), types_ok ty ->
  let d := match nsd with Some d => d | None => Z.of_nat (length (n_axes nrb)) end in
  writable ty nrb d fields ->
  exists file nrb', petiga_write ty nrb true fields nsd = Ok file /\ petiga_read junk ty file = Ok nrb' /\
    Forall2 (stored_axis ty) (n_axes nrb) (n_axes nrb') /\ n_comp nrb' = (if fields then n_comp nrb else 4) /\
    forall idx, in_shape (n_shape nrb) idx ->
      (forall c, 0 <= c < d \/ c = 3 -> n_arr nrb' idx c = stored (t_scal ty) (n_arr nrb idx c)) /\ (forall c, d <= c < 3 -> n_arr nrb' idx c = n0 N) /\
      forall c, 4 <= c < n_comp nrb' -> n_arr nrb' idx c = nmul N (stored (t_scal ty) (ndiv N (n_arr nrb idx c) (n_arr nrb idx 3))) (n_arr nrb' idx 3).
Proof. exact rounded_roundtrip. Qed.
Print Assumptions C108_roundtrip.
(** Objects of doubles below 2^127 meet its hypothesis in the four formats of single precision. *)
Theorem C108_doubles : forall complex long (nrb : nurbs Dn) d fields, let ty := single_types complex long in let w := t_int ty in
  (1 <= length (n_axes nrb) <= 3)%nat -> Z.of_nat (length (n_axes nrb)) <= d <= 3 -> 4 <= n_comp nrb ->
  (forall A, In A (n_axes nrb) -> 2 <= a_size A /\ 1 <= a_deg A /\ fits w (a_len A) /\ forall i, 0 <= i < a_len A -> moderate (a_knots A i)) ->
  fits w ((d + 1) * fold_right Z.mul 1 (n_shape nrb)) -> fits w ((n_comp nrb - 4) * fold_right Z.mul 1 (n_shape nrb)) ->
  (forall idx c, in_shape (n_shape nrb) idx -> 0 <= c < 4 -> moderate (n_arr nrb idx c)) ->
  (forall idx c, in_shape (n_shape nrb) idx -> 4 <= c < n_comp nrb -> moderate (ndiv Dn (n_arr nrb idx c) (n_arr nrb idx 3))) ->
  types_ok ty /\ writable ty nrb d fields.
Proof. exact single_writable. Qed.
Print Assumptions C108_doubles.
(** What is stored for a double: a nearest single, the number itself if it is one; the same for real
    and complex numbers. *)
Theorem C108_nearest : forall x, moderate x -> stable f4 x /\ stable c8 x /\ stored c8 x = stored f4 x /\ finite (stored f4 x) /\
  nearest_single (dval x) (dval (stored f4 x)) /\ (single_value (dval x) -> stored f4 x = x).
Proof. exact single_stored. Qed.
Print Assumptions C108_nearest.
(** Order is kept: knots read back do not decrease (but distinct ones may become equal). *)
Theorem C108_monotone : forall x y, moderate x -> moderate y -> (dval x <= dval y)%R -> (dval (stored f4 x) <= dval (stored f4 y))%R.
Proof. exact single_monotone. Qed.
Print Assumptions C108_monotone.
(** Only the first write loses anything: the object read is written to the same file, byte for byte. *)
Theorem C108_again : forall complex long (nrb : nurbs Dn) junk fields nsd file nrb', let ty := single_types complex long in
  let d := match nsd with Some d => d | None => Z.of_nat (length (n_axes nrb)) end in
  writable ty nrb d fields -> (forall idx, in_shape (n_shape nrb) idx -> moderate (n_arr nrb idx 3) /\ dval (stored f4 (n_arr nrb idx 3)) <> 0%R) ->
  (forall idx c, in_shape (n_shape nrb) idx -> 4 <= c < n_comp nrb -> moderate (ndiv Dn (n_arr nrb idx c) (n_arr nrb idx 3))) ->
  petiga_write ty nrb true fields nsd = Ok file -> petiga_read junk ty file = Ok nrb' -> petiga_write ty nrb' true fields nsd = Ok file.
Proof. exact single_same_file. Qed.
Print Assumptions C108_again.

Lemma moderate_small x : valid_binary 53 1024 x && match x with S754_zero _ => true | S754_finite _ m e => (Zpos m <? 2 ^ 53) && (e <=? 74) | _ => false end = true -> moderate x.
Proof.
  intros H. apply andb_prop in H. destruct H as [V H]. unfold moderate, finite. destruct x as [s|s| |s m e]; try discriminate.
  - repeat split; auto. cbn [dval]. rewrite Rabs_R0. apply b2_pos.
  - apply andb_prop in H. destruct H as [H1 H2]. apply Z.ltb_lt in H1. apply Z.leb_le in H2. repeat split; auto. cbn [dval].
    rewrite Rabs_mult, (Rabs_right (b2 e)) by (left; apply b2_pos). rewrite Rabs_mult. replace (Rabs (if s then -1 else 1)) with 1%R by (destruct s; [rewrite Rabs_left by lra|rewrite Rabs_right by lra]; lra).
    rewrite (Rabs_right (IZR (Zpos m))) by (apply Rle_ge, IZR_le; lia). rewrite Rmult_1_l.
    apply Rlt_le_trans with (b2 53 * b2 e)%R.
    + apply Rmult_lt_compat_r; [apply b2_pos|]. rewrite b2_IZR by lia. apply IZR_lt. exact H1.
    + rewrite <- b2_add. apply b2_le. lia.
Qed.
(** The curve of PropIo.v with knots 0, 0, 0, 1/3, 2, 2, 2, a weight 3 and the field quotients 7, 8/3,
    -3/2, 5: 1/3 and 8/3 are no singles, 3, 7 and -3/2 are. *)
Definition exFv (a b : Z) : Dn := ndiv Dn (dbl_of_Z a) (dbl_of_Z b).
Definition exFaxis : axis Dn := mkAxis (N:=Dn) 4 7 (fun i => if i =? 3 then exFv 1 3 else dbl_of_Z (nth (Z.to_nat i) [0; 0; 0; 1; 2; 2; 2] 0)).
Definition exF : nurbs Dn := mkNurbs (N:=Dn) [exFaxis] 5
  (fun idx c => dbl_of_Z (nth (Z.to_nat c) (nth (Z.to_nat (hd 0 idx)) [[0; 1; 0; 1; 7]; [1; 3; 0; 3; 8]; [2; 3; 0; 4; -6]; [3; 0; 0; 1; 5]] []) 0)).
Lemma exF_idx idx : in_shape (n_shape exF) idx -> exists i, idx = [i] /\ 0 <= i < 4.
Proof. intros H. inversion H as [|s i sh r Hi Hr]; subst. inversion Hr; subst. exists i. split; [reflexivity|]. exact Hi. Qed.
Ltac exf := intros idx c I Hc; destruct (exF_idx idx I) as (i & -> & Hi); cbn in Hc;
  assert (i = 0 \/ i = 1 \/ i = 2 \/ i = 3) as X by lia; assert (c = 0 \/ c = 1 \/ c = 2 \/ c = 3 \/ c = 4) as Y by lia;
  destruct X as [->|[->|[->| ->]]]; destruct Y as [->|[->|[->|[->| ->]]]]; try lia; apply moderate_small; vm_compute; reflexivity.
Lemma exF_control idx c : in_shape (n_shape exF) idx -> 0 <= c < 4 -> moderate (n_arr exF idx c).
Proof. revert idx c. exf. Qed.
Lemma exF_fields idx c : in_shape (n_shape exF) idx -> 4 <= c < n_comp exF -> moderate (ndiv Dn (n_arr exF idx c) (n_arr exF idx 3)).
Proof. revert idx c. exf. Qed.
Example C108_example complex long : types_ok (single_types complex long) /\ writable (single_types complex long) exF 2 true.
Proof.
  apply C108_doubles; cbn [exF n_axes n_comp length]; try lia.
  - intros A [<-|[]]. split; [cbn; lia|]. split; [vm_compute; congruence|]. split; [destruct long; split; vm_compute; congruence|]. intros i Hi. cbn in Hi. enumz i 0%Z 6%Z; apply moderate_small; vm_compute; reflexivity.
  - destruct long; split; vm_compute; congruence.
  - destruct long; split; vm_compute; congruence.
  - exact exF_control.
  - exact exF_fields.
Qed.
(** 1/3 as a single is 0x3eaaaaab, read back a different double; -3/2 comes back. *)
Example C108_values : c_enc f4 (exFv 1 3) = [62; 170; 170; 171] /\ SFeqb (stored f4 (exFv 1 3)) (exFv 1 3) = false /\ SFltb (exFv 1 3) (stored f4 (exFv 1 3)) = true /\ SFeqb (stored f4 (exFv (-6) 4)) (exFv (-6) 4) = true.
Proof. vm_compute. auto. Qed.
Lemma exF_weight i : 0 <= i < 4 -> stored f4 (n_arr exF [i] 3) = n_arr exF [i] 3 /\ match n_arr exF [i] 3 with S754_finite false _ _ => True | _ => False end.
Proof. intros Hi. enumz i 0%Z 3%Z; vm_compute; auto. Qed.
Example C108_again_example complex long : exists file nrb', let ty := single_types complex long in
  petiga_write ty exF true true (Some 2) = Ok file /\ petiga_read (fun _ => n0 Dn) ty file = Ok nrb' /\ petiga_write ty nrb' true true (Some 2) = Ok file.
Proof.
  destruct (C108_example complex long) as [T W].
  destruct (C108_roundtrip Dn (fun _ => n0 Dn) (single_types complex long) exF true (Some 2) T W) as (file & nrb' & E1 & E2 & _).
  exists file, nrb'. split; [exact E1|]. split; [exact E2|]. refine (C108_again complex long exF (fun _ => n0 Dn) true (Some 2) file nrb' W _ exF_fields E1 E2).
  intros idx I. split; [apply exF_control; [exact I|lia]|]. destruct (exF_idx idx I) as (i & -> & Hi). destruct (exF_weight i Hi) as [-> P].
  destruct (n_arr exF [i] 3) as [s|s| |[|] m e]; try contradiction. cbn [dval]. pose proof (b2_pos e). assert (0 < IZR (Z.pos m))%R by (apply IZR_lt; lia).
  rewrite Rmult_1_l. apply Rmult_integral_contrapositive. lra.
Qed.

(** The number of bytes of a file in single precision. *)
Theorem C108_size : forall complex long (nrb : nurbs Dn) (control fields : bool) (nsd : option Z) file,
  Forall (fun A => 0 < a_size A /\ 0 <= a_len A) (n_axes nrb) -> 4 <= n_comp nrb ->
  let d := match nsd with Some d => d | None => Z.of_nat (length (n_axes nrb)) end in
  (control = true -> Z.of_nat (length (n_axes nrb)) <= d <= 3) ->
  petiga_write (single_types complex long) nrb control fields nsd = Ok file ->
  Z.of_nat (length file) = file_size (if long then 8 else 4) 4 (if complex then 8 else 4) (map a_size (n_axes nrb)) (map a_len (n_axes nrb)) (n_comp nrb) (if control then Some d else None) fields.
Proof. exact single_size. Qed.
Print Assumptions C108_size.
Example C108_size_example : Forall (fun A => 0 < a_size A /\ 0 <= a_len A) (n_axes exD) /\ 4 <= n_comp exD /\ (exists file, petiga_write (single_types false false) exD true true (Some 3) = Ok file) /\
  file_size 4 4 4 [4] [7] 5 (Some 3) true = 152.
Proof. split; [repeat constructor; cbn; lia|]. split; [cbn; lia|]. split; [eexists; reflexivity|reflexivity]. Qed.
