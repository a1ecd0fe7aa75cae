(** Files: PetIGA (C62, C63, C64, C65) and VTK (C66).  Vocabulary: SpecIo.v, SpecVtk.v. *)
From Coq Require Import String ZArith Reals QArith List Bool Lia Lra SpecFloat.
From Verif Require Import Num ModelNurbs ModelIo ModelFloat SpecIo SpecVtk ProofIo ProofIo2 ProofIo3 ProofIo4 ProofIo5 ProofFloat ProofIo6 ProofIoBad ExTac PropNurbs PropRefuted ProofIoSize.
Import ListNotations.
Local Open Scope Z_scope.

(** ** C62: PetIGA files round-trip *)
(** For every arithmetic: the knots, the homogeneous coordinates written and the weights come back
    unchanged, the others are zero; without control net the object read has the Greville net; the
    fields are stored as quotients by the weight. *)
Theorem C62_roundtrip : forall (N : Num) (junk : Z -> N) (ty : types N) nrb (control fields : bool) (nsd : option Z), types_ok ty ->
  let d := match nsd with Some d => d | None => Z.of_nat (length (n_axes nrb)) end in
  storable ty nrb (if control then Some d else None) fields ->
  exists file nrb', petiga_write ty nrb control fields nsd = Ok file /\ petiga_read junk ty file = Ok nrb' /\ same_axes nrb nrb' /\
    n_comp nrb' = (if fields then n_comp nrb else 4) /\
    forall idx, in_shape (n_shape nrb) idx ->
     (if control then (forall c, 0 <= c < d \/ c = 3 -> n_arr nrb' idx c = n_arr nrb idx c) /\ (forall c, d <= c < 3 -> n_arr nrb' idx c = n0 N)
      else n_arr nrb' idx 3 = n1 N /\
       (forall a, (a < length (n_axes nrb))%nat -> exists x, greville junk nrb' (Z.of_nat a) = Ok x /\ n_arr nrb' idx (Z.of_nat a) = v_get x (nth a idx 0)) /\
       (forall c, Z.of_nat (length (n_axes nrb)) <= c < 3 -> n_arr nrb' idx c = n0 N)) /\
     forall c, 4 <= c < n_comp nrb' -> n_arr nrb' idx c = nmul N (ndiv N (n_arr nrb idx c) (n_arr nrb idx 3)) (n_arr nrb' idx 3).
Proof. exact @roundtrip. Qed.
Print Assumptions C62_roundtrip.
(** In exact arithmetic, with nonzero weights and vanishing dropped coordinates, everything comes back. *)
Theorem C62_same : forall junk (ty : types Rn) nrb (nsd : option Z), types_ok ty ->
  let d := match nsd with Some d => d | None => Z.of_nat (length (n_axes nrb)) end in
  storable ty nrb (Some d) true ->
  (forall idx, in_shape (n_shape nrb) idx -> n_arr nrb idx 3 <> 0%R /\ forall c, d <= c < 3 -> n_arr nrb idx c = 0%R) ->
  exists file nrb', petiga_write ty nrb true true nsd = Ok file /\ petiga_read junk ty file = Ok nrb' /\ same_axes nrb nrb' /\ n_comp nrb' = n_comp nrb /\
    forall idx c, in_shape (n_shape nrb) idx -> 0 <= c < n_comp nrb -> n_arr nrb' idx c = n_arr nrb idx c.
Proof. exact roundtrip_real. Qed.
Print Assumptions C62_same.
(** Every double survives in the four formats of double precision, so that objects of doubles meet
    the hypothesis of C62_roundtrip. *)
Theorem C62_doubles : forall complex long (nrb : nurbs Dn) d, let ty := petiga_types complex long in let w := t_int ty in
  (1 <= length (n_axes nrb) <= 3)%nat -> Z.of_nat (length (n_axes nrb)) <= d <= 3 -> 4 <= n_comp nrb ->
  (forall A, In A (n_axes nrb) -> 2 <= a_size A /\ 1 <= a_deg A /\ fits w (a_len A) /\ forall i, 0 <= i < a_len A -> is_double (a_knots A i)) ->
  fits w ((d + 1) * fold_right Z.mul 1 (n_shape nrb)) -> fits w ((n_comp nrb - 4) * fold_right Z.mul 1 (n_shape nrb)) ->
  (forall idx c, in_shape (n_shape nrb) idx -> 0 <= c < 4 -> is_double (n_arr nrb idx c)) ->
  (forall idx c, in_shape (n_shape nrb) idx -> 4 <= c < n_comp nrb -> is_double (ndiv Dn (n_arr nrb idx c) (n_arr nrb idx 3))) ->
  types_ok ty /\ storable ty nrb (Some d) true.
Proof. exact (fun complex long nrb d h1 h2 h3 h4 h5 h6 h7 h8 => conj (petiga_types_ok complex long) (storable_doubles complex long nrb d h1 h2 h3 h4 h5 h6 h7 h8)). Qed.
Print Assumptions C62_doubles.

(** The quadratic curve with the knots 0,0,0,1,2,2,2 in doubles, with one field. *)
Definition exDaxis : axis Dn := mkAxis (N:=Dn) 4 7 (fun i => dbl_of_Z (nth (Z.to_nat i) [0; 0; 0; 1; 2; 2; 2] 0)).
Definition exD : nurbs Dn := mkNurbs (N:=Dn) [exDaxis] 5
  (fun idx c => dbl_of_Z (nth (Z.to_nat c) (nth (Z.to_nat (hd 0 idx)) [[0; 1; 0; 1; 7]; [1; 3; 0; 2; 8]; [2; 3; 0; 4; -6]; [3; 0; 0; 1; 5]] []) 0)).
Lemma exD_idx idx : in_shape (n_shape exD) idx -> exists i, idx = [i] /\ 0 <= i < 4.
Proof. intros H. inversion H as [|s i sh r Hi Hr]; subst. inversion Hr; subst. exists i. split; [reflexivity|]. exact Hi. Qed.
Ltac exd := intros idx c I Hc; destruct (exD_idx idx I) as (i & -> & Hi); cbn in Hc;
  assert (i = 0 \/ i = 1 \/ i = 2 \/ i = 3) as X by lia; assert (c = 0 \/ c = 1 \/ c = 2 \/ c = 3 \/ c = 4) as Y by lia;
  destruct X as [->|[->|[->| ->]]]; destruct Y as [->|[->|[->|[->| ->]]]]; try lia; vm_compute; reflexivity.
Example C62_example : types_ok (petiga_types false false) /\ storable (petiga_types false false) exD (Some 2) true.
Proof.
  apply (C62_doubles false false exD 2); cbn [exD n_axes n_comp length]; try lia.
  - intros A [<-|[]]. split; [cbn; lia|]. split; [vm_compute; congruence|]. split; [split; vm_compute; congruence|]. intros i Hi. cbn in Hi. enumz i 0%Z 6%Z; vm_compute; reflexivity.
  - split; vm_compute; congruence.
  - split; vm_compute; congruence.
  - exd.
  - exd.
Qed.
(** The same curve over the reals, with a format for integers of 8 bytes. *)
Definition exI : codec Rn := mkCodec (N:=Rn) 8 (fun x => be 8 (up x - 1)) (fun bs => IZR (sgn 8 (unbe bs))).
Definition exR : nurbs Rn := mkNurbs (N:=Rn) [mkAxis (N:=Rn) 4 7 (fun i => IZR (nth (Z.to_nat i) [0; 0; 0; 1; 2; 2; 2] 0))] 5
  (fun idx c => IZR (nth (Z.to_nat c) (nth (Z.to_nat (hd 0 idx)) [[0; 1; 0; 1; 7]; [1; 3; 0; 2; 8]; [2; 3; 0; 4; -8]; [3; 0; 0; 1; 5]] []) 0)).
Lemma exI_int z : -1000 <= z <= 1000 -> lossless exI (IZR z : Rn).
Proof.
  intros H. split; [apply be_length|]. change (IZR (sgn 8 (unbe (be 8 (up (IZR z) - 1)))) = IZR z). f_equal.
  rewrite <- (tech_up (IZR z) (z + 1)) by (rewrite plus_IZR; lra). replace (z + 1 - 1) with z by lia.
  rewrite unbe_be. apply sgn_fits; [lia|]. unfold fits. change (2 ^ (8 * Z.of_nat 8 - 1)) with 9223372036854775808. lia.
Qed.
Example C62_same_example : let ty := mkTypes (N:=Rn) 4 exI exI in types_ok ty /\ storable ty exR (Some 2) true /\
  forall idx, in_shape (n_shape exR) idx -> n_arr exR idx 3 <> 0%R /\ forall c, 2 <= c < 3 -> n_arr exR idx c = 0%R.
Proof.
  cbv zeta. split; [repeat split; cbn; lia|].
  assert (HI : forall idx, in_shape (n_shape exR) idx -> exists i, idx = [i] /\ 0 <= i < 4).
  { intros idx H. inversion H as [|s i sh r Hi Hr]; subst. inversion Hr; subst. exists i. split; [reflexivity|]. exact Hi. }
  split.
  - constructor; cbn [exR n_axes n_comp length].
    + lia.
    + intros A [<-|[]]. split; [cbn; lia|]. split; [vm_compute; congruence|]. split; [split; vm_compute; congruence|].
      intros i Hi. apply exI_int. cbn in Hi. enumz i 0%Z 6%Z; vm_compute; split; congruence.
    + lia.
    + split; [lia|]. split; [split; vm_compute; congruence|]. intros idx c I Hc. apply exI_int. destruct (HI idx I) as (i & -> & Hi).
      enumz i 0%Z 3%Z; enumz c 0%Z 3%Z; vm_compute; split; congruence.
    + intros _ _. split; [split; vm_compute; congruence|]. split; [split; vm_compute; congruence|]. intros idx c I Hc. destruct (HI idx I) as (i & -> & Hi). assert (c = 4) as -> by lia.
      replace (ndiv Rn (n_arr exR [i] 4) (n_arr exR [i] 3)) with (IZR (nth (Z.to_nat i) [7; 4; -2; 5] 0) : Rn); [apply exI_int; enumz i 0%Z 3%Z; vm_compute; split; congruence|].
      enumz i 0%Z 3%Z; [change (7 = 7 / 1)%R|change (4 = 8 / 2)%R|change (-2 = -8 / 4)%R|change (5 = 5 / 1)%R]; lra.
  - intros idx I. destruct (HI idx I) as (i & -> & Hi). split; [enumz i 0%Z 3%Z; [change (1 <> 0)%R|change (2 <> 0)%R|change (4 <> 0)%R|change (1 <> 0)%R]; lra|].
    intros c Hc. assert (c = 2) as -> by lia. enumz i 0%Z 3%Z; reflexivity.
Qed.
(** Files begin with the number by which PetIGA knows them, the highest byte first. *)
Theorem C62_identifier : forall (N : Num) (ty : types N) nrb (control fields : bool) (nsd : option Z) file, t_int ty = 4%nat ->
  petiga_write ty nrb control fields nsd = Ok file -> firstn 4 file = [0; 18; 123; 163].
Proof. exact @petiga_magic. Qed.
Print Assumptions C62_identifier.
Example C62_identifier_example : t_int (petiga_types false false) = 4%nat /\ exists file, petiga_write (petiga_types false false) exD true true (Some 3) = Ok file.
Proof. split; [reflexivity|]. eexists. reflexivity. Qed.

(** The number of bytes of a file, for 32-bit and 64-bit integers, real and complex coefficients. *)
Theorem C62_size : forall complex long (nrb : nurbs Dn) (control fields : bool) (nsd : option Z) file,
  Forall (fun A => 0 < a_size A /\ 0 <= a_len A) (n_axes nrb) -> 4 <= n_comp nrb ->
  let d := match nsd with Some d => d | None => Z.of_nat (length (n_axes nrb)) end in
  (control = true -> Z.of_nat (length (n_axes nrb)) <= d <= 3) ->
  petiga_write (petiga_types complex long) nrb control fields nsd = Ok file ->
  Z.of_nat (length file) = file_size (if long then 8 else 4) 8 (if complex then 16 else 8) (map a_size (n_axes nrb)) (map a_len (n_axes nrb)) (n_comp nrb) (if control then Some d else None) fields.
Proof. exact double_size. Qed.
Print Assumptions C62_size.
Example C62_size_example : Forall (fun A => 0 < a_size A /\ 0 <= a_len A) (n_axes exD) /\ 4 <= n_comp exD /\ (exists file, petiga_write (petiga_types true true) exD true true (Some 3) = Ok file) /\
  file_size 8 8 16 [4] [7] 5 (Some 3) true = 464.
Proof. split; [repeat constructor; cbn; lia|]. split; [cbn; lia|]. split; [eexists; reflexivity|reflexivity]. Qed.

(** ** C63: damaged files are rejected *)
Theorem C63_rejects : forall (N : Num) (junk : Z -> N) (ty : types N) nrb (control fields : bool) (nsd : option Z), types_ok ty ->
  let d := match nsd with Some d => d | None => Z.of_nat (length (n_axes nrb)) end in
  let nsd' := if control then Some d else None in
  storable ty nrb nsd' fields ->
  (exists file, petiga_write ty nrb control fields nsd = Ok file /\
    (forall pre post, file = pre ++ post -> post <> [] -> exists e, petiga_read junk ty pre = Raise e)) /\
  (forall id1 id2 id3 rest, fits (t_int ty) id1 -> fits (t_int ty) id2 -> fits (t_int ty) id3 ->
    id1 <> 1211299 \/ (control = true /\ id2 <> 1211214) \/ (fields = true /\ 4 < n_comp nrb /\ id3 <> 1211214) ->
    exists e, petiga_read junk ty (petiga_file ty id1 id2 id3 nrb nsd' fields ++ rest) = Raise e).
Proof. exact @damaged. Qed.
Print Assumptions C63_rejects.
Example C63_example : types_ok (petiga_types true true) /\ storable (petiga_types true true) exD (Some 3) true.
Proof.
  apply (C62_doubles true true exD 3); cbn [exD n_axes n_comp length]; try lia.
  - intros A [<-|[]]. split; [cbn; lia|]. split; [vm_compute; congruence|]. split; [split; vm_compute; congruence|]. intros i Hi. cbn in Hi. enumz i 0%Z 6%Z; vm_compute; reflexivity.
  - split; vm_compute; congruence.
  - split; vm_compute; congruence.
  - exd.
  - exd.
Qed.
(** So are files whose numbers are out of range: the dimension, the degree or the number of knots of
    an axis, the number of coordinates, the number of fields.  Whatever follows. *)
Theorem C63_out_of_range : forall (N : Num) (junk : Z -> N) (ty : types N), types_ok ty -> forall (axes : list (axis N)) flags rest,
  let w := t_int ty in let int := int_bytes w in
  let head := fun flags dim => int 1211299 ++ int flags ++ int dim in
  let axis := fun A => int (a_deg A) ++ int (a_len A) ++ flat_map (c_enc (t_real ty)) (map (a_knots A) (zseq (Z.to_nat (a_len A)) 0)) in
  let rejected := fun file => exists e, petiga_read junk ty file = Raise e in
  let dim := Z.of_nat (length axes) in
  1 <= dim <= 3 -> fits w flags ->
  (forall A, In A axes -> 2 <= a_size A /\ 1 <= a_deg A /\ fits w (a_len A) /\ forall i, 0 <= i < a_len A -> lossless (t_real ty) (a_knots A i)) ->
  (forall d, fits w d -> ~ 1 <= d <= 3 -> rejected (head flags d ++ rest)) /\
  (forall d p m, dim < d <= 3 -> fits w p -> fits w m -> p < 1 \/ 0 <= m < p + 3 -> rejected (head flags d ++ flat_map axis axes ++ int p ++ int m ++ rest)) /\
  (forall nsd, fits w nsd -> Z.odd flags = true -> ~ dim <= nsd <= 3 -> rejected (head flags dim ++ flat_map axis axes ++ int nsd ++ rest)) /\
  (forall npd, fits w npd -> npd < 1 -> rejected (head 2 dim ++ flat_map axis axes ++ int npd ++ rest)).
Proof. exact @out_of_range. Qed.
Print Assumptions C63_out_of_range.
Example C63_out_of_range_example : let ty := petiga_types false false in types_ok ty /\ 1 <= Z.of_nat (length [exDaxis]) <= 3 /\ fits (t_int ty) 3 /\
  (forall A, In A [exDaxis] -> 2 <= a_size A /\ 1 <= a_deg A /\ fits (t_int ty) (a_len A) /\ forall i, 0 <= i < a_len A -> lossless (t_real ty) (a_knots A i)) /\
  fits (t_int ty) 4 /\ Z.odd 3 = true /\ ~ 1 <= 4 <= 3.
Proof.
  cbv zeta. split; [apply petiga_types_ok|]. split; [cbn; lia|]. split; [split; vm_compute; congruence|]. split.
  - exact (st_axis _ _ _ _ (proj2 C62_example)).
  - split; [split; vm_compute; congruence|]. split; [reflexivity|lia].
Qed.
(** A file too short to hold an identifier raises IndexError, in all three readers. *)
Theorem C63_short : forall (N : Num) (junk : Z -> N) (ty : types N) (bs : list Z) sh, (length bs < t_int ty)%nat ->
  petiga_read junk ty bs = Raise IndexError /\ read_vec ty bs sh = Raise IndexError /\ read_mat ty bs = Raise IndexError.
Proof.
  intros N junk ty bs sh H. assert (E : get_int ty bs = Raise IndexError).
  { unfold get_int, get_ints, rbind, fromfile. rewrite Nat.div_small by exact H. reflexivity. }
  split; [|split].
  - unfold petiga_read, get_file, rbind. rewrite E. reflexivity.
  - unfold read_vec, rbind. rewrite E. reflexivity.
  - unfold read_mat, rbind. rewrite E. reflexivity.
Qed.
Print Assumptions C63_short.
Example C63_short_example : (length [0; 18; 123] < t_int (petiga_types false false))%nat.
Proof. cbn. lia. Qed.

(** ** C64: vectors *)
(** The same array comes back when its shape is that of the net, possibly followed by a number of
    components other than 1; truncated files are rejected. *)
Theorem C64_vectors : forall (N : Num) (ty : types N) (A : nd N) sh, types_ok ty -> Forall (fun s => 2 <= s) sh ->
  (nd_shape A = sh \/ exists k, 0 <= k /\ k <> 1 /\ nd_shape A = sh ++ [k]) ->
  fits (t_int ty) (fold_right Z.mul 1 (nd_shape A)) -> (forall idx, in_shape (nd_shape A) idx -> lossless (t_scal ty) (nd_get A idx)) ->
  exists bs B, write_vec ty A (Some sh) = Ok bs /\ read_vec ty bs (Some sh) = Ok B /\ nd_shape B = nd_shape A /\
    (forall idx, in_shape (nd_shape A) idx -> nd_get B idx = nd_get A idx) /\
    forall pre post, bs = pre ++ post -> post <> [] -> exists e, read_vec ty pre (Some sh) = Raise e.
Proof. exact @vec_same. Qed.
Print Assumptions C64_vectors.
(** Whatever the shape, the entries come back in their order. *)
Theorem C64_entries : forall (N : Num) (ty : types N), types_ok ty -> forall (A : nd N) sh k,
  Forall (fun s => 2 <= s) sh -> Forall (fun s => 0 <= s) (nd_shape A) -> fold_right Z.mul 1 (nd_shape A) = k * fold_right Z.mul 1 sh ->
  fits (t_int ty) (fold_right Z.mul 1 (nd_shape A)) -> (forall idx, in_shape (nd_shape A) idx -> lossless (t_scal ty) (nd_get A idx)) ->
  exists bs B, write_vec ty A (Some sh) = Ok bs /\ read_vec ty bs (Some sh) = Ok B /\
    nd_shape B = (if k =? 1 then sh else sh ++ [k]) /\ entries B = entries A /\
    forall pre post, bs = pre ++ post -> post <> [] -> exists e, read_vec ty pre (Some sh) = Raise e.
Proof. exact @vec_roundtrip. Qed.
Print Assumptions C64_entries.
(** The file begins with the number by which PETSc knows vectors. *)
Theorem C64_identifier : forall (N : Num) (ty : types N) (A : nd N) sh file, t_int ty = 4%nat ->
  write_vec ty A sh = Ok file -> firstn 4 file = [0; 18; 123; 78].
Proof. exact @vec_magic. Qed.
Print Assumptions C64_identifier.
Definition exA (k : Z) : nd Dn := mkNd (N:=Dn) [2; 3; k] (fun idx => dbl_of_Z (ravel_c [2; 3; k] idx)).
Example C64_example : Forall (fun s => 2 <= s) [2; 3] /\ (nd_shape (exA 2) = [2; 3] \/ exists k, 0 <= k /\ k <> 1 /\ nd_shape (exA 2) = [2; 3] ++ [k]) /\
  fits 4 (fold_right Z.mul 1 (nd_shape (exA 2))) /\ (forall idx, in_shape (nd_shape (exA 2)) idx -> lossless (t_scal (petiga_types false false)) (nd_get (exA 2) idx)).
Proof.
  split; [repeat constructor; lia|]. split; [right; exists 2; repeat split; lia|]. split; [split; vm_compute; congruence|].
  intros idx I. apply scal_lossless. cbn in I. inversion I as [|s i sh r Hi I1]; subst. inversion I1 as [|s1 j sh1 r1 Hj I2]; subst.
  inversion I2 as [|s2 k sh2 r2 Hk I3]; subst. inversion I3; subst. enumz i 0%Z 1%Z; enumz j 0%Z 2%Z; enumz k 0%Z 1%Z; vm_compute; reflexivity.
Qed.
(** An array with a single component per point loses its last axis. *)
Theorem C64_refuted : exists (A : nd Dn) sh bs B, Forall (fun s => 2 <= s) sh /\ nd_shape A = sh ++ [1] /\
  write_vec (petiga_types false false) A (Some sh) = Ok bs /\ read_vec (petiga_types false false) bs (Some sh) = Ok B /\ nd_shape B <> nd_shape A.
Proof.
  exists (exA 1), [2; 3].
  destruct (C64_entries Dn (petiga_types false false) (petiga_types_ok false false) (exA 1) [2; 3] 1) as (bs & B & H1 & H2 & H3 & _).
  - repeat constructor; lia.
  - repeat constructor; lia.
  - reflexivity.
  - split; vm_compute; congruence.
  - intros idx I. apply scal_lossless. cbn in I. inversion I as [|s i sh r Hi I1]; subst. inversion I1 as [|s1 j sh1 r1 Hj I2]; subst.
    inversion I2 as [|s2 k sh2 r2 Hk I3]; subst. inversion I3; subst. enumz i 0%Z 1%Z; enumz j 0%Z 2%Z; enumz k 0%Z 0%Z; vm_compute; reflexivity.
  - exists bs, B. split; [repeat constructor; lia|]. split; [reflexivity|]. do 2 (split; [assumption|]). rewrite H3. discriminate.
Qed.
Print Assumptions C64_refuted.

(** ** C65: matrices *)
(** What read_mat returns is what the file says: the numbers of rows and columns, the row pointers
    from 0 to the number of nonzeros, as running sums of the row lengths as far as these fit the
    integers of the file, the column indices, and as many values. *)
Theorem C65_csr : forall (N : Num) (ty : types N), types_ok ty -> forall file m, Forall (fun b => 0 <= b < 256) file -> read_mat ty file = Ok m ->
  let w := t_int ty in let M := Z.to_nat (m_rows m) in let AI := fun i => nth i (m_ai m) 0 in
  exists nz rownz, 0 <= m_rows m /\ 0 <= nz /\ length rownz = M /\
    int_at w file 0 1211216 /\ int_at w file 1 (m_rows m) /\ int_at w file 2 (m_cols m) /\ int_at w file 3 nz /\
    (forall i, (i < M)%nat -> int_at w file (4 + i) (nth i rownz 0)) /\
    length (m_ai m) = S M /\ AI 0%nat = 0 /\ AI M = nz /\
    (forall i, (i <= M)%nat -> (forall j, (j <= i)%nat -> fits w (sum (firstn j rownz))) -> AI i = sum (firstn i rownz)) /\
    Z.of_nat (length (m_aj m)) = nz /\ Z.of_nat (length (m_av m)) = nz /\
    forall k, (k < length (m_aj m))%nat -> int_at w file (4 + M + k) (nth k (m_aj m) 0).
Proof. exact @mat_csr. Qed.
Print Assumptions C65_csr.
(** Conversely every file made of the identifier, the sizes, the row lengths, the column indices and
    the values is read, and gives these; what is left of it when its end is missing is rejected. *)
Theorem C65_reads : forall (N : Num) (ty : types N), types_ok ty -> forall columns (rows cols : list Z) (vals : list N) rest,
  let w := t_int ty in let M := Z.of_nat (length rows) in let nz := Z.of_nat (length cols) in
  fits w (M + 1) -> fits w columns -> fits w nz -> Forall (fun x => 0 <= x) rows -> sum rows = nz -> Forall (fits w) cols ->
  length vals = length cols -> Forall (lossless (t_scal ty)) vals ->
  let file := flat_map (int_bytes w) ([1211216; M; columns; nz] ++ rows ++ cols) ++ flat_map (c_enc (t_scal ty)) vals in
  (exists ai, read_mat ty (file ++ rest) = Ok (mkCsr M columns ai cols vals) /\ length ai = S (length rows) /\
    forall i, (i <= length rows)%nat -> nth i ai 0 = sum (firstn i rows)) /\
  forall pre post, file = pre ++ post -> post <> [] -> exists e, read_mat ty pre = Raise e.
Proof. exact (fun N ty => @mat_reads N (fun _ => n0 N) ty). Qed.
Print Assumptions C65_reads.
Example C65_reads_example : let ty := petiga_types false false in let rows := [1; 2] in let cols := [0; 3; 4] in let vals := map dbl_of_Z [7; -8; 9] in
  types_ok ty /\ fits (t_int ty) (Z.of_nat (length rows) + 1) /\ fits (t_int ty) 5 /\ fits (t_int ty) (Z.of_nat (length cols)) /\ Forall (fun x => 0 <= x) rows /\
  sum rows = Z.of_nat (length cols) /\ Forall (fits (t_int ty)) cols /\ length vals = length cols /\ Forall (lossless (t_scal ty)) vals.
Proof.
  cbv zeta. split; [apply petiga_types_ok|]. do 3 (split; [split; vm_compute; congruence|]). split; [repeat constructor; lia|]. split; [reflexivity|].
  split; [repeat apply Forall_cons; try apply Forall_nil; split; vm_compute; congruence|]. split; [reflexivity|].
  repeat apply Forall_cons; try apply Forall_nil; apply scal_lossless; vm_compute; reflexivity.
Qed.
(** A matrix of 2 rows with 3 nonzeros. *)
Definition exM : list Z := flat_map (be 4) [1211216; 2; 5; 3; 1; 2; 0; 3; 4] ++ flat_map (fun x => be 8 (dbl_bits (dbl_of_Z x))) [7; -8; 9].
Definition zlist_eqb (l l' : list Z) : bool := if list_eq_dec Z.eq_dec l l' then true else false.
Lemma zlist_eqb_eq l l' : zlist_eqb l l' = true -> l = l'.
Proof. unfold zlist_eqb. destruct (list_eq_dec Z.eq_dec l l'); [auto|discriminate]. Qed.
Lemma all_bytes l : forallb (fun b => (0 <=? b) && (b <? 256)) l = true -> Forall (fun b => 0 <= b < 256) l.
Proof. intros X. apply Forall_forall. intros b I. rewrite forallb_forall in X. specialize (X b I). apply andb_prop in X. lia. Qed.
Example C65_example : Forall (fun b => 0 <= b < 256) exM /\ exists m, read_mat (petiga_types false false) exM = Ok m /\ m_ai m = [0; 1; 3] /\ m_aj m = [0; 3; 4]
  /\ map dbl_bits (m_av m) = map dbl_bits (map dbl_of_Z [7; -8; 9]).
Proof.
  split; [apply all_bytes; vm_compute; reflexivity|].
  assert (match read_mat (petiga_types false false) exM with
          | Ok m => zlist_eqb (m_ai m) [0; 1; 3] && zlist_eqb (m_aj m) [0; 3; 4] && zlist_eqb (map dbl_bits (m_av m)) (map dbl_bits (map dbl_of_Z [7; -8; 9]))
          | Raise _ => false end = true) as X by (vm_compute; reflexivity).
  destruct (read_mat (petiga_types false false) exM) as [m|]; [|discriminate]. exists m. apply andb_prop in X. destruct X as [X X3]. apply andb_prop in X. destruct X as [X1 X2].
  split; [reflexivity|]. split; [|split]; apply zlist_eqb_eq; assumption.
Qed.
(** The sums are formed in the integers of the file: row lengths of 2^31-1, 2^31-1 and 2 with no
    nonzeros are accepted, with the row pointers 0, 2^31-1, -2, 0. *)
Definition exBad : list Z := flat_map (be 4) [1211216; 3; 5; 0; 2 ^ 31 - 1; 2 ^ 31 - 1; 2].
Theorem C65_refuted : exists file m, Forall (fun b => 0 <= b < 256) file /\ read_mat (petiga_types false false) file = Ok m /\
  exists rownz, (forall i, (i < 3)%nat -> int_at 4 file (4 + i) (nth i rownz 0)) /\ m_rows m = 3 /\ nth 2 (m_ai m) 0 <> sum (firstn 2 rownz) /\ nth 2 (m_ai m) 0 < nth 1 (m_ai m) 0.
Proof.
  assert (match read_mat (petiga_types false false) exBad with Ok m => (m_rows m =? 3) && zlist_eqb (m_ai m) [0; 2 ^ 31 - 1; -2; 0] | Raise _ => false end = true) as X by (vm_compute; reflexivity).
  exists exBad. destruct (read_mat (petiga_types false false) exBad) as [m|]; [|discriminate]. apply andb_prop in X. destruct X as [X1 X2]. apply Z.eqb_eq in X1. apply zlist_eqb_eq in X2.
  exists m. split; [apply all_bytes; vm_compute; reflexivity|]. split; [reflexivity|].
  exists [2 ^ 31 - 1; 2 ^ 31 - 1; 2]. rewrite X2. split; [|split; [exact X1|split; [vm_compute; congruence|vm_compute; reflexivity]]].
  intros i Hi. destruct i as [|[|[|i]]]; [| | |lia]; (split; [split; vm_compute; congruence|vm_compute; reflexivity]).
Qed.
Print Assumptions C65_refuted.

(** ** C66: VTK files *)
(** The file holds the points nrb(sampled breaks): DIMENSIONS are the numbers of samples, the first
    axis varies fastest, three numbers per point; then the fields in the same order. *)
Theorem C66_layout : forall (N : Num) (junk : Z -> N) junk2 junk3 junkS cd title (nrb : nurbs N) control fields scalars vectors sampler brks C F nf,
  (1 <= length (n_axes nrb) <= 3)%nat -> length brks = length (n_axes nrb) ->
  (forall a, (a < length (n_axes nrb))%nat -> breaks nrb (Z.of_nat a) = Ok (nth a brks [])) ->
  let us := map sampler brks in let lens := map (fun l => Z.of_nat (length l)) us in
  Forall (fun l => l <> []) us ->
  let fa := vtk_fields fields scalars vectors in
  call junk junk2 junk3 junkS nrb (map (fun l => Some (vec_of l)) us) fa = Ok (C, F) ->
  (exists f, call_array nrb fa = Ok (nf + 4, f)) ->
  (forall s, In s scalars -> - nf <= snd s < nf) -> (forall v, In v vectors -> (length (snd v) <= 3)%nat /\ forall j, In j (snd v) -> - nf <= j < nf) ->
  let f := match F with Some f => f | None => fun _ _ => n0 N end in
  vtk_write junk junk2 junk3 junkS cd title nrb control fields scalars vectors sampler =
    Ok (vtk_head title ++ (if control then vtk_points (c_enc cd) lens C else vtk_coords (c_enc cd) lens us) ++ vtk_data (c_enc cd) lens f nf scalars vectors).
Proof. exact @vtk_layout. Qed.
Print Assumptions C66_layout.
(** A bilinear patch with weights 1 over [0,1]x[0,2], one field; numbers are stored by their numerators. *)
Definition exSq : nurbs Qn := mkNurbs (N:=Qn) [mkAxis (N:=Qn) 2 4 (fun i => if i <? 2 then 0 else 1)%Q; mkAxis (N:=Qn) 2 4 (fun i => if i <? 2 then 0 else 2)%Q] 5
  (fun idx c => let i := nth 0 idx 0 in let j := nth 1 idx 0 in inject_Z (if c =? 0 then i else if c =? 1 then 2 * j else if c =? 2 then 0 else if c =? 3 then 1 else 10 * i + j)).
Definition exNum : codec Qn := mkCodec (N:=Qn) 1 (fun q => [Qnum q]) (fun bs => inject_Z (hd 0 bs)).
Definition exSam (l : list Qn) : list Qn := match l with [a; b] => [a; Qred ((a + b) / 2); b] | _ => l end.
Definition exCall := call (N:=Qn) zj (fun _ _ => 0%Q) (fun _ _ _ => 0%Q) (fun _ => 0) exSq (map (fun l => Some (vec_of l)) (map exSam [[0; 1]; [0; 2]]%Q)) FYes.
Example C66_example : (forall a, (a < 2)%nat -> breaks exSq (Z.of_nat a) = Ok (nth a [[0; 1]; [0; 2]]%Q [])) /\ (exists C F, exCall = Ok (C, F)) /\ (exists f, call_array exSq FYes = Ok (1 + 4, f)).
Proof.
  split; [|split].
  - intros a Ha. destruct a as [|[|a]]; [| |lia]; vm_compute; reflexivity.
  - assert (match exCall with Ok _ => true | Raise _ => false end = true) as X by (vm_compute; reflexivity).
    destruct exCall as [[C F]|]; [|discriminate]. eauto.
  - eexists. reflexivity.
Qed.
Example C66_run : vtk_write (N:=Qn) zj (fun _ _ => 0%Q) (fun _ _ _ => 0%Q) (fun _ => 0) exNum "t" exSq true None [("f"%string, 0)] [("g h"%string, [0; -1])] exSam =
  Ok (line "# vtk DataFile Version 2.0" ++ line "t" ++ line "BINARY" ++ line "DATASET STRUCTURED_GRID" ++ line "DIMENSIONS 3 3 1" ++ line "POINTS 9 double" ++
      [0;0;0; 1;0;0; 1;0;0;  0;1;0; 1;1;0; 1;1;0;  0;2;0; 1;2;0; 1;2;0] ++ [10] ++ line "POINT_DATA 9" ++
      line "SCALARS f double" ++ line "LOOKUP_TABLE default" ++ [0; 5; 10; 1; 11; 21; 1; 6; 11] ++ [10] ++
      line "VECTORS g_h double" ++ [0;0;0; 5;5;0; 10;10;0;  1;1;0; 11;11;0; 21;21;0;  1;1;0; 6;6;0; 11;11;0] ++ [10]).
Proof. vm_compute. reflexivity. Qed.
