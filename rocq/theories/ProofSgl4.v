(** Single precision files. *)
From Coq Require Import ZArith Reals List Bool SpecFloat Lia Lra.
From Verif Require Import Num ModelNurbs ModelIo ModelFloat ModelSingle SpecIo SpecDouble SpecSingle ProofIo ProofIo2 ProofIo3 ProofIo7 ProofFloat ProofRound ProofRound2 ProofSgl ProofSgl2 ProofSgl3.
Import ListNotations.
Local Open Scope Z_scope.

Theorem rounded_roundtrip (N : Num) (junk : Z -> N) (ty : types N) nrb (fields : bool) (nsd : option Z) : types_ok ty ->
  let d := match nsd with Some d => d | None => Z.of_nat (length (n_axes nrb)) end in
  writable ty nrb d fields ->
  exists file nrb', petiga_write ty nrb true fields nsd = Ok file /\ petiga_read junk ty file = Ok nrb' /\
    Forall2 (stored_axis ty) (n_axes nrb) (n_axes nrb') /\ n_comp nrb' = (if fields then n_comp nrb else 4) /\
    forall idx, in_shape (n_shape nrb) idx ->
      (forall c, 0 <= c < d \/ c = 3 -> n_arr nrb' idx c = stored (t_scal ty) (n_arr nrb idx c)) /\ (forall c, d <= c < 3 -> n_arr nrb' idx c = n0 N) /\
      forall c, 4 <= c < n_comp nrb' -> n_arr nrb' idx c = nmul N (stored (t_scal ty) (ndiv N (n_arr nrb idx c) (n_arr nrb idx 3))) (n_arr nrb' idx 3).
Proof.
  intros Hty d Wr. destruct (stored_back junk ty Hty nrb d fields Wr) as (nrb' & E & R). eexists. exists nrb'. split; [|split; [exact E|exact R]].
  apply (petiga_written ty nrb true fields nsd).
  - apply Forall_forall. intros A I. destruct (wr_axis _ _ _ _ Wr A I). lia.
  - apply Wr.
  - intros _. apply Wr.
Qed.
Theorem rounded_again (N : Num) (junk : Z -> N) (ty : types N) nrb (fields : bool) (nsd : option Z) file nrb' : types_ok ty ->
  let d := match nsd with Some d => d | None => Z.of_nat (length (n_axes nrb)) end in
  writable ty nrb d fields -> petiga_write ty nrb true fields nsd = Ok file -> petiga_read junk ty file = Ok nrb' ->
  (forall idx c, fields = true -> in_shape (n_shape nrb) idx -> 4 <= c < n_comp nrb ->
     let q := stored (t_scal ty) (ndiv N (n_arr nrb idx c) (n_arr nrb idx 3)) in let w := stored (t_scal ty) (n_arr nrb idx 3) in ndiv N (nmul N q w) w = q) ->
  petiga_write ty nrb' true fields nsd = Ok file.
Proof.
  intros Hty d Wr E1 E2 HQ.
  assert (PW : petiga_write ty nrb true fields nsd = Ok (petiga_file ty IGA_ID VEC_ID VEC_ID nrb (Some d) fields)).
  { apply (petiga_written ty nrb true fields nsd); [|apply Wr|intros _; apply Wr]. apply Forall_forall. intros A I. destruct (wr_axis _ _ _ _ Wr A I). lia. }
  rewrite PW in E1. injection E1 as <-. pose proof (stored_again junk ty Hty nrb d fields Wr nrb' E2 HQ) as SA.
  destruct (stored_back junk ty Hty nrb d fields Wr) as (n2 & E & S & EC & _). rewrite E2 in E. injection E as <-.
  assert (LA : length (n_axes nrb') = length (n_axes nrb)) by (clear - S; induction S; cbn; auto).
  assert (D' : match nsd with Some d => d | None => Z.of_nat (length (n_axes nrb')) end = d) by (unfold d; rewrite LA; reflexivity).
  rewrite (petiga_written ty nrb' true fields nsd).
  - rewrite D', SA. reflexivity.
  - pose proof (wr_axis _ _ _ _ Wr) as WA. clear - S WA. induction S as [|A B l l' (S1 & _) S IH]; constructor.
    + destruct (WA A (or_introl eq_refl)). lia.
    + apply IH. intros C I. apply WA. right. exact I.
  - rewrite EC. pose proof (wr_comp _ _ _ _ Wr). destruct fields; lia.
  - intros _. rewrite D', LA. apply Wr.
Qed.
(** ** Doubles *)
Lemma scal_stable complex long x : moderate x -> stable (t_scal (single_types complex long)) x.
Proof. destruct complex; [apply c8_stable|apply f4_stable]. Qed.
Lemma scal_stored complex long x : moderate x -> stored (t_scal (single_types complex long)) x = narrow x.
Proof. destruct complex; [apply c8_stored|apply f4_stored]. Qed.
Lemma single_types_ok complex long : types_ok (single_types complex long).
Proof. destruct complex, long; repeat split; cbn; lia. Qed.
Theorem single_writable complex long (nrb : nurbs Dn) d fields : let ty := single_types complex long in let w := t_int ty in
  (1 <= length (n_axes nrb) <= 3)%nat -> Z.of_nat (length (n_axes nrb)) <= d <= 3 -> 4 <= n_comp nrb ->
  (forall A, In A (n_axes nrb) -> 2 <= a_size A /\ 1 <= a_deg A /\ fits w (a_len A) /\ forall i, 0 <= i < a_len A -> moderate (a_knots A i)) ->
  fits w ((d + 1) * fold_right Z.mul 1 (n_shape nrb)) -> fits w ((n_comp nrb - 4) * fold_right Z.mul 1 (n_shape nrb)) ->
  (forall idx c, in_shape (n_shape nrb) idx -> 0 <= c < 4 -> moderate (n_arr nrb idx c)) ->
  (forall idx c, in_shape (n_shape nrb) idx -> 4 <= c < n_comp nrb -> moderate (ndiv Dn (n_arr nrb idx c) (n_arr nrb idx 3))) ->
  types_ok ty /\ writable ty nrb d fields.
Proof.
  intros ty w H1 H2 H3 H4 H5 H6 H7 H8. split; [apply single_types_ok|]. constructor; auto.
  - intros A I. destruct (H4 A I) as (A1 & A2 & A3 & A4). split; [auto|]. split; [auto|]. split; [auto|]. intros i Hi. apply f4_stable; auto.
  - intros idx c I Hc. apply scal_stable; auto.
  - intros _ Hc. split; [|split; [exact H6|]].
    + assert (0 < fold_right Z.mul 1 (n_shape nrb)).
      { unfold n_shape. clear - H4. induction (n_axes nrb) as [|A l IH]; cbn [map fold_right]; [lia|]. destruct (H4 A (or_introl eq_refl)).
        assert (0 < fold_right Z.mul 1 (map a_size l)) by (apply IH; intros B I; apply H4; right; exact I). nia. }
      apply (fits_small _ _ _ H6). nia.
    + intros idx c I Hc'. apply scal_stable; auto.
Qed.
Theorem single_same_file complex long (nrb : nurbs Dn) junk fields nsd file nrb' : let ty := single_types complex long in
  let d := match nsd with Some d => d | None => Z.of_nat (length (n_axes nrb)) end in
  writable ty nrb d fields -> (forall idx, in_shape (n_shape nrb) idx -> moderate (n_arr nrb idx 3) /\ dval (stored f4 (n_arr nrb idx 3)) <> 0%R) ->
  (forall idx c, in_shape (n_shape nrb) idx -> 4 <= c < n_comp nrb -> moderate (ndiv Dn (n_arr nrb idx c) (n_arr nrb idx 3))) ->
  petiga_write ty nrb true fields nsd = Ok file -> petiga_read junk ty file = Ok nrb' -> petiga_write ty nrb' true fields nsd = Ok file.
Proof.
  intros ty d Wr Hw Hf E1 E2. apply (rounded_again Dn junk ty nrb fields nsd file nrb' (single_types_ok _ _) Wr E1 E2).
  intros idx c _ I Hc. destruct (Hw idx I) as [M NZ]. cbv zeta. unfold ty. rewrite !scal_stored by auto.
  rewrite f4_stored in NZ by auto. pose proof (Hf idx c I Hc) as MQ.
  set (x := ndiv Dn (n_arr nrb idx c) (n_arr nrb idx 3)) in *. set (w := n_arr nrb idx 3) in *.
  destruct (to_single_ok x MQ) as (Fx & _ & _). destruct (to_single_ok w M) as (Fw & _ & _).
  apply (times_over (to_single x) (to_single w) Fx Fw). unfold narrow in NZ. rewrite (proj1 (proj2 (of_single_ok _ Fw))) in NZ. exact NZ.
Qed.
(** What is stored for a double. *)
Theorem single_stored x : moderate x -> stable f4 x /\ stable c8 x /\ stored c8 x = stored f4 x /\ finite (stored f4 x) /\
  nearest_single (dval x) (dval (stored f4 x)) /\ (single_value (dval x) -> stored f4 x = x).
Proof.
  intros M. rewrite c8_stored, f4_stored by auto. destruct (narrow_ok x M) as (F & NR & _).
  split; [apply f4_stable; auto|]. split; [apply c8_stable; auto|]. split; [reflexivity|]. split; [exact F|]. split; [exact NR|]. apply narrow_same. exact M.
Qed.
Theorem single_monotone x y : moderate x -> moderate y -> (dval x <= dval y)%R -> (dval (stored f4 x) <= dval (stored f4 y))%R.
Proof. intros Mx My L. rewrite !f4_stored by auto. apply narrow_mono; auto. Qed.
