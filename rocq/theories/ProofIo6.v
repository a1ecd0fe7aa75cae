(** PetIGA round trips in the form of the properties. *)
From Coq Require Import ZArith Reals List Bool Lia Lra SpecFloat.
From Verif Require Import Num ModelNurbs ModelIo ModelFloat SpecIo ProofIo ProofIo2 ProofIo3 ProofIo4 ProofFloat.
Import ListNotations.
Local Open Scope Z_scope.

Lemma written {N : Num} (ty : types N) nrb (control fields : bool) (nsd : option Z) :
  let d := match nsd with Some d => d | None => Z.of_nat (length (n_axes nrb)) end in
  storable ty nrb (if control then Some d else None) fields ->
  petiga_write ty nrb control fields nsd = Ok (petiga_file ty IGA_ID VEC_ID VEC_ID nrb (if control then Some d else None) fields).
Proof.
  intros d St. apply petiga_written.
  - apply Forall_forall. intros A I. destruct (st_axis _ _ _ _ St A I). lia.
  - apply (st_comp _ _ _ _ St).
  - intros ->. pose proof (st_control _ _ _ _ St) as H. cbn in H. fold d. tauto.
Qed.
Lemma roundtrip {N : Num} junk (ty : types N) nrb (control fields : bool) (nsd : option Z) : types_ok ty ->
  let d := match nsd with Some d => d | None => Z.of_nat (length (n_axes nrb)) end in
  storable ty nrb (if control then Some d else None) fields ->
  exists file nrb', petiga_write ty nrb control fields nsd = Ok file /\ petiga_read junk ty file = Ok nrb' /\ same_axes nrb nrb' /\
    n_comp nrb' = (if fields then n_comp nrb else 4) /\
    forall idx, in_shape (n_shape nrb) idx ->
     (if control then (forall c, 0 <= c < d \/ c = 3 -> n_arr nrb' idx c = n_arr nrb idx c) /\ (forall c, d <= c < 3 -> n_arr nrb' idx c = n0 N)
      else n_arr nrb' idx 3 = n1 N /\
       (forall a, (a < length (n_axes nrb))%nat -> exists x, greville junk nrb' (Z.of_nat a) = Ok x /\ n_arr nrb' idx (Z.of_nat a) = v_get x (nth a idx 0)) /\
       (forall c, Z.of_nat (length (n_axes nrb)) <= c < 3 -> n_arr nrb' idx c = n0 N)) /\
     forall c, 4 <= c < n_comp nrb' -> n_arr nrb' idx c = nmul N (ndiv N (n_arr nrb idx c) (n_arr nrb idx 3)) (n_arr nrb' idx 3).
Proof.
  intros Hty d St. destruct (petiga_back junk ty Hty nrb _ fields St) as (nrb' & E & H1 & H2 & H3).
  exists (petiga_file ty IGA_ID VEC_ID VEC_ID nrb (if control then Some d else None) fields), nrb'.
  split; [apply written; exact St|]. split; [exact E|]. split; [exact H1|]. split; [exact H2|].
  intros idx I. specialize (H3 idx I). destruct control; exact H3.
Qed.
Lemma roundtrip_real junk (ty : types Rn) nrb (nsd : option Z) : types_ok ty ->
  let d := match nsd with Some d => d | None => Z.of_nat (length (n_axes nrb)) end in
  storable ty nrb (Some d) true ->
  (forall idx, in_shape (n_shape nrb) idx -> n_arr nrb idx 3 <> 0%R /\ forall c, d <= c < 3 -> n_arr nrb idx c = 0%R) ->
  exists file nrb', petiga_write ty nrb true true nsd = Ok file /\ petiga_read junk ty file = Ok nrb' /\ same_axes nrb nrb' /\ n_comp nrb' = n_comp nrb /\
    forall idx c, in_shape (n_shape nrb) idx -> 0 <= c < n_comp nrb -> n_arr nrb' idx c = n_arr nrb idx c.
Proof.
  intros Hty d St HW. destruct (roundtrip junk ty nrb true true nsd Hty St) as (file & nrb' & E1 & E2 & E3 & E4 & H).
  exists file, nrb'. do 4 (split; [assumption|]). intros idx c I Hc. destruct (H idx I) as [[H1 H2] H3]. destruct (HW idx I) as [W0 WD].
  destruct (Z_lt_ge_dec c d) as [L|L]; [apply H1; lia|]. destruct (Z_lt_ge_dec c 3) as [L3|L3].
  - etransitivity; [apply H2; lia|]. symmetry. apply WD; lia.
  - destruct (Z.eq_dec c 3) as [->|]; [apply H1; auto|]. rewrite H3 by lia. rewrite H1 by auto.
    change (n_arr nrb idx c / n_arr nrb idx 3 * n_arr nrb idx 3 = n_arr nrb idx c)%R. field. exact W0.
Qed.
(** An object of doubles can be stored. *)
Definition is_double (x : Dn) : Prop := valid_binary 53 1024 x = true.
Lemma storable_doubles complex long (nrb : nurbs Dn) d : let w := t_int (petiga_types complex long) in
  (1 <= length (n_axes nrb) <= 3)%nat -> Z.of_nat (length (n_axes nrb)) <= d <= 3 -> 4 <= n_comp nrb ->
  (forall A, In A (n_axes nrb) -> 2 <= a_size A /\ 1 <= a_deg A /\ fits w (a_len A) /\ forall i, 0 <= i < a_len A -> is_double (a_knots A i)) ->
  fits w ((d + 1) * fold_right Z.mul 1 (n_shape nrb)) -> fits w ((n_comp nrb - 4) * fold_right Z.mul 1 (n_shape nrb)) ->
  (forall idx c, in_shape (n_shape nrb) idx -> 0 <= c < 4 -> is_double (n_arr nrb idx c)) ->
  (forall idx c, in_shape (n_shape nrb) idx -> 4 <= c < n_comp nrb -> is_double (ndiv Dn (n_arr nrb idx c) (n_arr nrb idx 3))) ->
  storable (petiga_types complex long) nrb (Some d) true.
Proof.
  intros w H1 H2 H3 H4 H5 H6 H7 H8. constructor; auto.
  - intros A I. destruct (H4 A I) as (X1 & X2 & X3 & X4). do 3 (split; [assumption|]). intros i Hi. apply f8_lossless. apply X4; auto.
  - split; [auto|]. split; [exact H5|]. intros idx c I Hc. apply scal_lossless. apply H7; auto.
  - intros _ L. split; [|split; [exact H6|intros idx c I Hc; apply scal_lossless; apply H8; auto]].
    unfold fits in *. fold w. assert (X : 1 <= fold_right Z.mul 1 (n_shape nrb)).
    { change 1 with (0 + 1) at 1. assert (0 < fold_right Z.mul 1 (n_shape nrb)); [|lia]. apply prod_pos. apply Forall_forall. intros s I. apply in_map_iff in I. destruct I as (A & <- & I). destruct (H4 A I). lia. }
    assert (- 2 ^ (8 * Z.of_nat w - 1) <= 0) by (pose proof (Z.pow_nonneg 2 (8 * Z.of_nat w - 1)); lia). split; [lia|]. nia.
Qed.
Lemma damaged {N : Num} junk (ty : types N) nrb (control fields : bool) (nsd : option Z) : types_ok ty ->
  let d := match nsd with Some d => d | None => Z.of_nat (length (n_axes nrb)) end in
  let nsd' := if control then Some d else None in
  storable ty nrb nsd' fields ->
  (exists file, petiga_write ty nrb control fields nsd = Ok file /\
    (forall pre post, file = pre ++ post -> post <> [] -> exists e, petiga_read junk ty pre = Raise e)) /\
  (forall id1 id2 id3 rest, fits (t_int ty) id1 -> fits (t_int ty) id2 -> fits (t_int ty) id3 ->
    id1 <> IGA_ID \/ (control = true /\ id2 <> VEC_ID) \/ (fields = true /\ 4 < n_comp nrb /\ id3 <> VEC_ID) ->
    exists e, petiga_read junk ty (petiga_file ty id1 id2 id3 nrb nsd' fields ++ rest) = Raise e).
Proof.
  intros Hty d nsd' St. split.
  - eexists. split; [apply written; exact St|]. intros pre post. apply petiga_prefix; auto.
  - intros id1 id2 id3 rest F1 F2 F3 W. apply petiga_ids; auto. destruct W as [W|[[-> W]|W]]; auto. right; left. split; auto. discriminate.
Qed.
Lemma vec_same {N : Num} (ty : types N) (A : nd N) sh : types_ok ty -> Forall (fun s => 2 <= s) sh ->
  (nd_shape A = sh \/ exists k, 0 <= k /\ k <> 1 /\ nd_shape A = sh ++ [k]) ->
  fits (t_int ty) (fold_right Z.mul 1 (nd_shape A)) -> (forall idx, in_shape (nd_shape A) idx -> lossless (t_scal ty) (nd_get A idx)) ->
  exists bs B, write_vec ty A (Some sh) = Ok bs /\ read_vec ty bs (Some sh) = Ok B /\ nd_shape B = nd_shape A /\
    (forall idx, in_shape (nd_shape A) idx -> nd_get B idx = nd_get A idx) /\
    forall pre post, bs = pre ++ post -> post <> [] -> exists e, read_vec ty pre (Some sh) = Raise e.
Proof.
  intros Hty Hsh HA HF HL.
  assert (Hsh0 : Forall (fun s => 0 <= s) sh) by (eapply Forall_impl; [|exact Hsh]; cbn; intros; lia).
  assert (X : exists k, prod (nd_shape A) = k * prod sh /\ (if k =? 1 then sh else sh ++ [k]) = nd_shape A /\ Forall (fun s => 0 <= s) (nd_shape A)).
  { destruct HA as [->|(k & K0 & K1 & ->)]; [exists 1|exists k]; (split; [|split]); auto.
    - lia.
    - rewrite prod_app. unfold prod at 2. cbn. lia.
    - destruct (Z.eqb_spec k 1); [lia|auto].
    - apply Forall_app; auto. }
  destruct X as (k & E1 & E2 & E3). destruct (vec_roundtrip ty Hty A sh k Hsh E3 E1 HF HL) as (bs & B & W & Rd & S1 & S2 & P).
  exists bs, B. do 2 (split; [assumption|]). assert (ES : nd_shape B = nd_shape A) by (rewrite S1; exact E2). split; [exact ES|]. split; [|exact P].
  intros idx I. apply entries_eq; [exact ES| rewrite ES; exact E3 |exact S2| rewrite ES; exact I].
Qed.

(** ** The first bytes *)
Theorem petiga_magic (N : Num) (ty : types N) nrb (control fields : bool) (nsd : option Z) file : t_int ty = 4%nat ->
  petiga_write ty nrb control fields nsd = Ok file -> firstn 4 file = [0; 18; 123; 163].
Proof.
  intros W E. unfold petiga_write, put_int in E. rewrite W in E.
  destruct control; cbn [bind] in E; [destruct (n_dim nrb <=? _); cbn [assert bind] in E; [|discriminate]; destruct (_ <=? 3); cbn [assert bind] in E; [|discriminate]|];
    injection E as <-; reflexivity.
Qed.
Theorem vec_magic (N : Num) (ty : types N) (A : nd N) sh file : t_int ty = 4%nat -> write_vec ty A sh = Ok file -> firstn 4 file = [0; 18; 123; 78].
Proof.
  intros W E. unfold write_vec, put_int in E. rewrite W in E. match type of E with bind ?r _ = _ => destruct r; cbn [bind] in E; [|discriminate] end.
  assert (X : forall l : list Z, firstn 4 (be 4 VEC_ID ++ l) = [0; 18; 123; 78]) by (intros; reflexivity).
  assert (Y : forall l : list Z, Ok l = Ok file -> file = l) by (intros l Q; congruence). rewrite (Y _ E). apply X.
Qed.
