(** Files with numbers out of range are rejected; matrix files are read back; names of the arrays in
    VTK files. *)
From Coq Require Import String Ascii ZArith List Bool Lia.
From Verif Require Import Num ModelNurbs ModelCad ModelIo SpecIo ProofIo ProofIo2 ProofIo3 ProofIo4.
Import ListNotations.
Local Open Scope Z_scope.

Section Bad.
Context {N : Num}.
Variable junk : Z -> N.
Variable ty : types N.
Hypothesis Hty : types_ok ty.
Notation int := (int_bytes (t_int ty)).
Notation w := (t_int ty).

Lemma bad_read bs rest : bad (get_file ty) bs -> exists e, petiga_read junk ty (bs ++ rest) = Raise e.
Proof. intros H. destruct (H rest) as [e Ee]. exists e. unfold petiga_read. rewrite Ee. reflexivity. Qed.
Lemma fits_id : fits w IGA_ID.
Proof. destruct Hty. apply fits_4; auto. unfold IGA_ID. lia. Qed.
Lemma bad_header flags dim rest : fits w flags -> fits w dim -> ~ 1 <= dim <= 3 ->
  exists e, petiga_read junk ty (int IGA_ID ++ int flags ++ int dim ++ rest) = Raise e.
Proof.
  intros F1 F2 Hd. rewrite !app_assoc. apply bad_read. rewrite <- app_assoc. unfold get_file.
  eapply bad_later; [apply parses_int; auto; apply fits_id|]. apply bad_must. intros _.
  eapply bad_later; [apply parses_int; auto|]. rewrite <- (app_nil_r (int dim)). eapply bad_later; [apply parses_int; auto|].
  apply bad_must. destruct (Z.leb_spec 1 dim), (Z.leb_spec dim 3); try discriminate. lia.
Qed.
(** Reading the axes fails in one of them. *)
Lemma bad_axes axes p m d : Forall (axis_ok ty) axes -> fits w p -> fits w m -> p < 1 \/ 0 <= m < p + 3 -> (length axes < d)%nat ->
  bad (get_axes ty d) (flat_map (axis_file ty) axes ++ int p ++ int m).
Proof.
  intros H Fp Fm B. revert d. induction H as [|A l HA H IH]; intros d Hd; (destruct d as [|d]; [cbn in Hd; lia|]); cbn [get_axes flat_map].
  - cbn [app]. apply bad_now. unfold get_axis1. eapply bad_later; [apply parses_int; auto|]. apply bad_must. intros Ep.
    rewrite <- (app_nil_r (int m)). eapply bad_later; [apply parses_int; auto|]. apply bad_must. intros En. exfalso.
    destruct (Z.leb_spec 1 p) as [Hp|]; [|discriminate]. destruct B as [B|B]; [lia|]. destruct Hty as (H4 & _ & _).
    assert (X : forall x, - 2 ^ 31 <= x < 2 ^ 31 -> fits w x) by (intros; apply fits_4; auto).
    assert (Hmp : fits w (m - p)). { unfold fits in *. lia. }
    rewrite (wrap_fits w (m - p)) in En by (auto; lia).
    destruct (Z_lt_dec (m - p - 1) (- 2 ^ (8 * Z.of_nat w - 1))) as [Lo|Lo].
    + unfold fits in *. lia.
    + rewrite wrap_fits in En by (unfold fits in *; lia). destruct (Z.leb_spec 2 (m - p - 1)); [lia|discriminate].
  - rewrite <- app_assoc. eapply bad_later; [apply parses_axis; auto|]. apply bad_now. apply IH. cbn in Hd. lia.
Qed.
Lemma bad_axis flags dim axes p m rest : fits w flags -> 1 <= dim <= 3 -> Z.of_nat (length axes) < dim -> Forall (axis_ok ty) axes ->
  fits w p -> fits w m -> p < 1 \/ 0 <= m < p + 3 ->
  exists e, petiga_read junk ty (int IGA_ID ++ int flags ++ int dim ++ flat_map (axis_file ty) axes ++ int p ++ int m ++ rest) = Raise e.
Proof.
  intros F1 Hd Hl HA Fp Fm B. rewrite !app_assoc. apply bad_read. rewrite <- !app_assoc. unfold get_file. destruct Hty as (H4 & _ & _).
  eapply bad_later; [apply parses_int; auto; apply fits_id|]. apply bad_must. intros _.
  eapply bad_later; [apply parses_int; auto|]. eapply bad_later; [apply parses_int; auto; apply fits_4; auto; lia|].
  apply bad_must. intros _. apply bad_now. apply bad_axes; auto. lia.
Qed.
Lemma bad_space flags axes d rest : fits w flags -> Z.odd flags = true -> (1 <= length axes <= 3)%nat -> Forall (axis_ok ty) axes -> fits w d ->
  ~ Z.of_nat (length axes) <= d <= 3 ->
  exists e, petiga_read junk ty (int IGA_ID ++ int flags ++ int (Z.of_nat (length axes)) ++ flat_map (axis_file ty) axes ++ int d ++ rest) = Raise e.
Proof.
  intros F1 Ho Hd HA Fd B. rewrite !app_assoc. apply bad_read. rewrite <- !app_assoc. unfold get_file. destruct Hty as (H4 & _ & _).
  eapply bad_later; [apply parses_int; auto; apply fits_id|]. apply bad_must. intros _.
  eapply bad_later; [apply parses_int; auto|]. eapply bad_later; [apply parses_int; auto; apply fits_4; auto; lia|].
  apply bad_must. intros _. rewrite Nat2Z.id. eapply bad_later; [apply parses_axes; auto|].
  assert (Eb : bit 1 flags = true).
  { unfold bit. replace (Z.land flags 1) with 1; [reflexivity|]. change 1 with (Z.ones 1) at 2. rewrite Z.land_ones by lia.
    change (2 ^ 1) with 2. rewrite Zmod_odd, Ho. reflexivity. }
  rewrite Eb. apply bad_now, bad_now. unfold get_control. rewrite <- (app_nil_r (int d)). eapply bad_later; [apply parses_int; auto|].
  apply bad_must. destruct (Z.leb_spec (Z.of_nat (length axes)) d), (Z.leb_spec d 3); try discriminate. lia.
Qed.
Lemma bad_count axes npd rest : (1 <= length axes <= 3)%nat -> Forall (axis_ok ty) axes -> fits w npd -> npd < 1 ->
  exists e, petiga_read junk ty (int IGA_ID ++ int 2 ++ int (Z.of_nat (length axes)) ++ flat_map (axis_file ty) axes ++ int npd ++ rest) = Raise e.
Proof.
  intros Hd HA Fd B. rewrite !app_assoc. apply bad_read. rewrite <- !app_assoc. unfold get_file. destruct Hty as (H4 & _ & _).
  eapply bad_later; [apply parses_int; auto; apply fits_id|]. apply bad_must. intros _.
  eapply bad_later; [apply parses_int; auto; apply fits_4; auto; lia|]. eapply bad_later; [apply parses_int; auto; apply fits_4; auto; lia|].
  apply bad_must. intros _. rewrite Nat2Z.id. eapply bad_later; [apply parses_axes; auto|].
  change (bit 1 2) with false. change (bit 2 2) with true. cbn iota. eapply (bad_later _ _ [] (int npd)); [apply parses_ret|].
  apply bad_now, bad_now. unfold get_fields. rewrite <- (app_nil_r (int npd)). eapply bad_later; [apply parses_int; auto|].
  apply bad_must. destruct (Z.leb_spec 1 npd); try discriminate. lia.
Qed.
Theorem out_of_range (axes : list (axis N)) flags rest :
  let head := fun flags dim => int 1211299 ++ int flags ++ int dim in
  let axis := fun A => int (a_deg A) ++ int (a_len A) ++ flat_map (c_enc (t_real ty)) (map (a_knots A) (zseq (Z.to_nat (a_len A)) 0)) in
  let rejected := fun file => exists e, petiga_read junk ty file = Raise e in
  let dim := Z.of_nat (length axes) in
  1 <= dim <= 3 -> fits w flags ->
  (forall A, In A axes -> 2 <= a_size A /\ 1 <= a_deg A /\ fits w (a_len A) /\ forall i, 0 <= i < a_len A -> lossless (t_real ty) (a_knots A i)) ->
  (forall d, fits w d -> ~ 1 <= d <= 3 -> rejected (head flags d ++ rest)) /\
  (forall d p m, dim < d <= 3 -> fits w p -> fits w m -> p < 1 \/ 0 <= m < p + 3 -> rejected (head flags d ++ flat_map axis axes ++ int p ++ int m ++ rest)) /\
  (forall nsd, fits w nsd -> Z.odd flags = true -> ~ dim <= nsd <= 3 -> rejected (head flags dim ++ flat_map axis axes ++ int nsd ++ rest)) /\
  (forall npd, fits w npd -> npd < 1 -> rejected (head 2 dim ++ flat_map axis axes ++ int npd ++ rest)).
Proof.
  cbv zeta. intros Hd F HA. assert (HA' : Forall (axis_ok ty) axes) by (apply Forall_forall; exact HA).
  repeat split.
  - intros d Fd B. rewrite <- !app_assoc. apply bad_header; auto.
  - intros d p m Hdd Fp Fm B. rewrite <- !app_assoc. apply (bad_axis flags d axes p m rest); auto; lia.
  - intros nsd Fn Ho B. rewrite <- !app_assoc. apply (bad_space flags axes nsd rest); auto; lia.
  - intros npd Fn B. rewrite <- !app_assoc. apply (bad_count axes npd rest); auto; lia.
Qed.

(** ** Matrices *)
Lemma parses_ints {B : Type} n l (f : list Z -> rd B) b y : n = Z.of_nat (length l) -> Forall (fits w) l ->
  (forall l' bs, (length l' < length l)%nat -> exists e, f l' bs = Raise e) -> parses (f l) b y ->
  parses (rbind (get_ints ty n) f) (flat_map int l ++ b) y.
Proof.
  intros -> F Sh [P1 P2]. destruct Hty as (H4 & _ & _).
  assert (E : flat_map int l = flat_map (be w) l) by (apply flat_map_ext; intros; symmetry; apply be_int).
  assert (L : Forall (fun x => length (be w x) = w /\ dec_int ty (be w x) = x) l).
  { eapply Forall_impl; [|exact F]. intros x Fx. split; [apply be_length|]. unfold dec_int. rewrite unbe_be. apply sgn_fits; auto. lia. }
  assert (Len : length (flat_map (be w) l) = (length l * w)%nat) by (apply flat_map_len; eapply Forall_impl; [|exact L]; cbn; tauto).
  assert (R1 : forall rest, get_ints ty (Z.of_nat (length l)) (flat_map (be w) l ++ rest) = Ok (l, rest)) by (intros; unfold get_ints; apply fromfile_enc; auto; lia).
  rewrite E. split.
  - intros rest. unfold rbind. rewrite <- app_assoc, R1. apply P1.
  - intros pre post Ep Hp. unfold rbind. apply app_eq_app in Ep. destruct Ep as [t [[E1 E2]|[E1 E2]]].
    + destruct t as [|z t].
      * rewrite app_nil_r in E1. cbn in E2. subst pre. rewrite <- (app_nil_r (flat_map (be w) l)), R1. apply (P2 [] post); auto.
      * destruct (fromfile_short w (dec_int ty) (length l) pre) as (l' & rest & Ef & Hl); [lia| |].
        { apply (f_equal (@length Z)) in E1. rewrite Len, app_length in E1. cbn in E1. lia. }
        unfold get_ints. rewrite Ef. apply Sh; auto.
    + subst pre. rewrite R1. apply (P2 t post); auto.
Qed.
Lemma sum_nonneg l : Forall (fun x => 0 <= x) l -> 0 <= sum l.
Proof. unfold sum. induction 1; cbn; lia. Qed.
Lemma cumsum_sums rows : Forall (fun x => 0 <= x) rows -> fits w (sum rows) -> forall i, (i <= length rows)%nat -> nth i (0 :: cumsum ty 0 rows) 0 = sum (firstn i rows).
Proof.
  intros HP F i. induction i; intros Hi; [reflexivity|]. rewrite cumsum_nth by lia. rewrite IHi by lia.
  assert (E : sum (firstn i rows) + nth i rows 0 = sum (firstn (S i) rows)).
  { rewrite (firstn_S ty i rows 0) by lia. rewrite (sum_app ty). unfold sum at 3. cbn. lia. }
  rewrite E. apply wrap_fits; [destruct Hty; lia|]. apply (fits_small _ _ (sum rows)); auto.
  rewrite <- (firstn_skipn (S i) rows) in HP. apply Forall_app in HP. destruct HP as [H1 H2]. apply sum_nonneg in H1, H2.
  pose proof (sum_app ty (firstn (S i) rows) (skipn (S i) rows)) as X. rewrite firstn_skipn in X. lia.
Qed.
Theorem mat_reads cols_count (rows cols : list Z) (vals : list N) rest :
  let M := Z.of_nat (length rows) in let nz := Z.of_nat (length cols) in
  fits w (M + 1) -> fits w cols_count -> fits w nz -> Forall (fun x => 0 <= x) rows -> sum rows = nz -> Forall (fits w) cols ->
  length vals = length cols -> Forall (lossless (t_scal ty)) vals ->
  let file := flat_map int ([1211216; M; cols_count; nz] ++ rows ++ cols) ++ flat_map (c_enc (t_scal ty)) vals in
  (exists ai, read_mat ty (file ++ rest) = Ok (mkCsr M cols_count ai cols vals) /\ length ai = S (length rows) /\
    forall i, (i <= length rows)%nat -> nth i ai 0 = sum (firstn i rows)) /\
  forall pre post, file = pre ++ post -> post <> [] -> exists e, read_mat ty pre = Raise e.
Proof.
  cbv zeta. set (M := Z.of_nat (length rows)). set (nz := Z.of_nat (length cols)). intros FM FN Fz HR ES FC LV HV.
  pose proof Hty as (H4 & _ & T3). pose proof (cumsum_sums rows HR ltac:(rewrite ES; auto)) as HS.
  assert (FR : Forall (fits w) rows).
  { apply Forall_forall. intros x I. apply (fits_small _ _ nz); auto. rewrite Forall_forall in HR. split; [auto|]. rewrite <- ES.
    clear - HR I. induction rows as [|y l IH]; [destruct I|]. unfold sum. cbn. fold (sum l).
    assert (0 <= sum l) by (apply sum_nonneg, Forall_forall; intros; apply HR; right; auto).
    destruct I as [->|I]; [lia|]. specialize (HR y (or_introl eq_refl)) as Hy. specialize (IH ltac:(intros; apply HR; right; auto) I). lia. }
  match goal with |- (exists ai, read_mat ty (?f ++ rest) = _ /\ _) /\ _ => set (file := f) end.
  assert (P : parses (get* clsid := get_int ty in
             must* assert (clsid =? MAT_ID) in
             get* h := get_ints ty 3 in
             match h with
             | [M; NN; nz] =>
                 let len := wrap (t_int ty) (M + 1) in
                 must* (if len <? 0 then Raise ValueError else if len =? 0 then Raise IndexError else Ok tt) in
                 get* rownz := get_ints ty M in
                 must* (if Z.of_nat (length rownz) =? M then Ok tt else Raise ValueError) in
                 let AI := 0 :: cumsum ty 0 rownz in
                 must* assert (last AI 0 =? nz) in
                 get* AJ := get_ints ty nz in
                 must* assert (Z.of_nat (length AJ) =? nz) in
                 get* AV := get (t_scal ty) nz in
                 rret (mkCsr M NN AI AJ AV)
             | _ => rlift (Raise ValueError)
             end) file (mkCsr M cols_count (0 :: cumsum ty 0 rows) cols vals)).
  { unfold file. rewrite flat_map_app, flat_map_app, <- !app_assoc. change ([1211216; M; cols_count; nz]) with ([1211216] ++ [M; cols_count; nz]).
    rewrite flat_map_app, <- app_assoc. replace (flat_map int [1211216]) with (int 1211216) by (cbn [flat_map]; rewrite app_nil_r; reflexivity).
    eapply parses_bind; [apply parses_int; auto; apply fits_4; auto; lia|]. apply parses_must; [reflexivity|].
    assert (FM' : fits w M) by (apply (fits_small _ _ (M + 1)); auto; unfold M; lia).
    apply parses_ints; [reflexivity|repeat (apply Forall_cons; [assumption|]); apply Forall_nil| |].
    { intros l' bs Hl. destruct l' as [|a [|b [|c l']]]; cbn in Hl; try lia; (eexists; reflexivity). }
    cbn iota. cbv zeta. rewrite wrap_fits by (auto; lia). apply parses_must.
    { destruct (Z.ltb_spec (M + 1) 0); [unfold M in *; lia|]. destruct (Z.eqb_spec (M + 1) 0); [unfold M in *; lia|reflexivity]. }
    apply parses_ints; [reflexivity|auto| |].
    { intros l' bs Hl. destruct (Z.eqb_spec (Z.of_nat (length l')) M); [unfold M in *; lia|]. eexists; reflexivity. }
    apply parses_must; [unfold M; rewrite Z.eqb_refl; reflexivity|].
    apply parses_must.
    { rewrite (last_nth ty) by discriminate. cbn [length]. rewrite cumsum_length. replace (S (length rows) - 1)%nat with (length rows) by lia.
      rewrite HS by lia. rewrite firstn_all, ES, Z.eqb_refl. reflexivity. }
    apply parses_ints; [reflexivity|auto| |].
    { intros l' bs Hl. destruct (Z.eqb_spec (Z.of_nat (length l')) nz); [unfold nz in *; lia|]. eexists; reflexivity. }
    apply parses_must; [unfold nz; rewrite Z.eqb_refl; reflexivity|].
    eapply parses_bind_nil; [apply parses_get; auto; unfold nz; rewrite LV; reflexivity|apply parses_ret]. }
  destruct P as [P1 P2]. split.
  - exists (0 :: cumsum ty 0 rows). split; [|split].
    + exact (f_equal (fun r => bind r (fun r => Ok (fst r))) (P1 rest)).
    + cbn [length]. rewrite cumsum_length. reflexivity.
    + exact HS.
  - intros pre post E Hp. destruct (P2 pre post E Hp) as [e Ee]. exists e. exact (f_equal (fun r => bind r (fun r => Ok (fst r))) Ee).
Qed.
End Bad.
