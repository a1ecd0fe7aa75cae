(** Writing and reading PetIGA objects. *)
From Coq Require Import ZArith List Bool Lia.
From Verif Require Import Num ModelNurbs ModelCad ModelIo SpecIo ProofIo.
Import ListNotations.
Local Open Scope Z_scope.

(** ** Rejection *)
Definition bad {A : Type} (r : rd A) (bs : list Z) : Prop := forall rest, exists e, r (bs ++ rest) = Raise e.
Lemma bad_later {A B : Type} (r : rd A) (f : A -> rd B) b1 b2 x : parses r b1 x -> bad (f x) b2 -> bad (rbind r f) (b1 ++ b2).
Proof. intros [H _] G rest. unfold rbind. rewrite <- app_assoc, H. apply G. Qed.
Lemma bad_now {A B : Type} (r : rd A) (f : A -> rd B) b : bad r b -> bad (rbind r f) b.
Proof. intros H rest. unfold rbind. destruct (H rest) as [e ->]. eauto. Qed.
Lemma bad_must {B : Type} (r : res unit) (f : rd B) b : (r = Ok tt -> bad f b) -> bad (rbind (rlift r) (fun _ => f)) b.
Proof. intros H rest. unfold rbind, rlift. destruct r as [[]|e]; cbn; [apply H; auto|eauto]. Qed.
Lemma bad_longer {A : Type} (r : rd A) b b' : bad r b -> bad r (b ++ b').
Proof. intros H rest. rewrite <- app_assoc. apply H. Qed.

Section Object.
Context {N : Num}.
Variable ty : types N.
Hypothesis Hty : types_ok ty.
Let int := int_bytes (t_int ty).

Definition knot_list (A : axis N) : list N := map (a_knots A) (zseq (Z.to_nat (a_len A)) 0).
Definition axis_file (A : axis N) : list Z := int (a_deg A) ++ int (a_len A) ++ flat_map (c_enc (t_real ty)) (knot_list A).
Definition axis_value (A : axis N) : Z * (Z * vec N) := (a_size A, (a_deg A, vec_of (knot_list A))).
Definition axis_ok (A : axis N) : Prop := 2 <= a_size A /\ 1 <= a_deg A /\ fits (t_int ty) (a_len A) /\
  forall i, 0 <= i < a_len A -> lossless (t_real ty) (a_knots A i).
Lemma knot_list_length A : axis_ok A -> Z.of_nat (length (knot_list A)) = a_len A.
Proof. intros (? & ? & _). unfold knot_list. rewrite map_length, zseq_length. unfold a_deg in *. lia. Qed.
Lemma parses_axis A : axis_ok A -> parses (get_axis1 ty) (axis_file A) (axis_value A).
Proof.
  intros HA. pose proof HA as (H1 & H2 & H3 & H4). destruct Hty as (T1 & T2 & T3).
  assert (Hd : a_len A = a_size A + a_deg A + 1) by (unfold a_deg; lia).
  unfold get_axis1, axis_file. eapply parses_bind; [apply parses_int; auto; apply (fits_small _ _ (a_len A)); auto; lia|].
  apply parses_must; [destruct (Z.leb_spec 1 (a_deg A)); auto; lia|].
  eapply parses_bind; [apply parses_int; auto|]. cbv zeta.
  rewrite (wrap_fits _ (a_len A - a_deg A)) by (try lia; apply (fits_small _ _ (a_len A)); auto; lia).
  rewrite wrap_fits by (try lia; apply (fits_small _ _ (a_len A)); auto; lia).
  apply parses_must; [destruct (Z.leb_spec 2 (a_len A - a_deg A - 1)); auto; lia|].
  eapply parses_bind_nil; [apply parses_get; auto; [symmetry; apply knot_list_length; auto|]|].
  - apply Forall_forall. intros x Hx. apply in_map_iff in Hx. destruct Hx as (i & <- & Hi). apply in_zseq in Hi. apply H4. lia.
  - replace (a_len A - a_deg A - 1) with (a_size A) by lia. apply parses_ret.
Qed.
Lemma parses_axes l : Forall axis_ok l -> parses (get_axes ty (length l)) (flat_map axis_file l) (map axis_value l).
Proof.
  induction 1 as [|A l HA H IH]; [apply parses_ret|]. cbn [length get_axes flat_map map].
  eapply parses_bind; [apply parses_axis; auto|]. eapply parses_bind_nil; [exact IH|]. apply parses_ret.
Qed.
(** Class id, number of values, values. *)
Definition array_file (id : Z) (l : list N) : list Z := int id ++ int (Z.of_nat (length l)) ++ flat_map (c_enc (t_scal ty)) l.
Lemma parses_array l : fits (t_int ty) (Z.of_nat (length l)) -> Forall (lossless (t_scal ty)) l -> parses (get_array ty) (array_file VEC_ID l) l.
Proof.
  intros F L. destruct Hty as (T1 & T2 & T3). unfold get_array, array_file.
  eapply parses_bind; [apply parses_int; auto; apply fits_4; unfold VEC_ID; lia|]. apply parses_must; [reflexivity|].
  eapply parses_bind; [apply parses_int; auto|]. apply parses_get; auto.
Qed.
Lemma bad_array id l : fits (t_int ty) id -> id <> VEC_ID -> bad (get_array ty) (array_file id l).
Proof.
  intros F Hid. unfold get_array, array_file. eapply bad_later; [apply parses_int; auto|]. apply bad_must.
  destruct (Z.eqb_spec id VEC_ID); [congruence|discriminate].
Qed.
Definition opt_file (o : option (Z * list N)) (id : Z) : list Z := match o with Some (k, l) => int k ++ array_file id l | None => [] end.
Definition opt_ok (o : option (Z * list N)) (lo hi : Z) : Prop :=
  match o with Some (k, l) => lo <= k <= hi /\ fits (t_int ty) k /\ fits (t_int ty) (Z.of_nat (length l)) /\ Forall (lossless (t_scal ty)) l | None => True end.
Definition flag (o : option (Z * list N)) (b : Z) : Z := match o with Some _ => b | None => 0 end.
Definition file (id1 id2 id3 : Z) (axes : list (axis N)) (ctl fld : option (Z * list N)) : list Z :=
  int id1 ++ int (flag ctl 1 + flag fld 2) ++ int (Z.of_nat (length axes)) ++ flat_map axis_file axes ++ opt_file ctl id2 ++ opt_file fld id3.
Lemma parses_file axes ctl fld m : (1 <= length axes <= 3)%nat -> Forall axis_ok axes -> opt_ok ctl (Z.of_nat (length axes)) 3 -> opt_ok fld 1 m ->
  parses (get_file ty) (file IGA_ID VEC_ID VEC_ID axes ctl fld) (map axis_value axes, (ctl, fld)).
Proof.
  intros Hd HA HC HF. destruct Hty as (T1 & T2 & T3). unfold get_file, file.
  eapply parses_bind; [apply parses_int; auto; apply fits_4; unfold IGA_ID; lia|]. apply parses_must; [reflexivity|].
  eapply parses_bind; [apply parses_int; auto; apply fits_4; destruct ctl, fld; cbn; lia|].
  eapply parses_bind; [apply parses_int; auto; apply fits_4; lia|].
  apply parses_must; [destruct (Z.leb_spec 1 (Z.of_nat (length axes))), (Z.leb_spec (Z.of_nat (length axes)) 3); auto; lia|].
  rewrite Nat2Z.id. eapply parses_bind; [apply parses_axes; auto|].
  eapply (parses_bind _ _ _ _ ctl).
  - destruct ctl as [[k l]|]; destruct fld; cbn [flag]; try apply parses_ret.
    all: change (bit 1 _) with true; destruct HC as (B & F1 & F2 & L); cbn [opt_file].
    all: eapply parses_bind_nil; [|apply (parses_ret (Some (k, l)))]; unfold get_control.
    all: eapply parses_bind; [apply parses_int; auto|]; apply parses_must; [destruct (Z.leb_spec (Z.of_nat (length axes)) k), (Z.leb_spec k 3); auto; lia|].
    all: eapply parses_bind_nil; [apply parses_array; auto|apply parses_ret].
  - eapply (parses_bind_nil _ _ _ fld).
    + destruct fld as [[k l]|]; destruct ctl; cbn [flag]; try apply parses_ret.
      all: change (bit 2 _) with true; destruct HF as (B & F1 & F2 & L); cbn [opt_file].
      all: eapply parses_bind_nil; [|apply (parses_ret (Some (k, l)))]; unfold get_fields.
      all: eapply parses_bind; [apply parses_int; auto|]; apply parses_must; [destruct (Z.leb_spec 1 k); auto; lia|].
      all: eapply parses_bind_nil; [apply parses_array; auto|apply parses_ret].
    + apply parses_ret.
Qed.
Lemma bad_file axes ctl fld m id1 id2 id3 : (1 <= length axes <= 3)%nat -> Forall axis_ok axes -> opt_ok ctl (Z.of_nat (length axes)) 3 -> opt_ok fld 1 m ->
  fits (t_int ty) id1 -> fits (t_int ty) id2 -> fits (t_int ty) id3 ->
  id1 <> IGA_ID \/ (ctl <> None /\ id2 <> VEC_ID) \/ (fld <> None /\ id3 <> VEC_ID) ->
  bad (get_file ty) (file id1 id2 id3 axes ctl fld).
Proof.
  intros Hd HA HC HF F1 F2 F3 W. destruct Hty as (T1 & T2 & T3). unfold get_file, file.
  eapply bad_later; [apply parses_int; auto|]. apply bad_must. intros E1.
  assert (id1 = IGA_ID) as -> by (destruct (Z.eqb_spec id1 IGA_ID); [auto|discriminate]).
  eapply bad_later; [apply parses_int; auto; apply fits_4; destruct ctl, fld; cbn; lia|].
  eapply bad_later; [apply parses_int; auto; apply fits_4; lia|]. apply bad_must. intros _.
  rewrite Nat2Z.id. eapply bad_later; [apply parses_axes; auto|].
  destruct (Z.eq_dec id2 VEC_ID) as [->|N2].
  - destruct W as [W|[[_ W]|[W3 W]]]; try congruence. eapply (bad_later _ _ _ _ ctl).
    + destruct ctl as [[k l]|]; destruct fld; cbn [flag]; try apply parses_ret.
      all: change (bit 1 _) with true; destruct HC as (B & G1 & G2 & L); cbn [opt_file].
      all: eapply parses_bind_nil; [|apply (parses_ret (Some (k, l)))]; unfold get_control.
      all: eapply parses_bind; [apply parses_int; auto|]; apply parses_must; [destruct (Z.leb_spec (Z.of_nat (length axes)) k), (Z.leb_spec k 3); auto; lia|].
      all: eapply parses_bind_nil; [apply parses_array; auto|apply parses_ret].
    + apply bad_now. destruct fld as [[k l]|]; [|congruence]. destruct HF as (B & G1 & G2 & L).
      destruct ctl; cbn [flag opt_file]; change (bit 2 _) with true.
      all: apply bad_now; unfold get_fields; eapply bad_later; [apply parses_int; auto|]; apply bad_must; intros _; apply bad_now, bad_array; auto.
  - destruct ctl as [[k l]|].
    + apply bad_now. destruct HC as (B & G1 & G2 & L). destruct fld; cbn [flag]; change (bit 1 _) with true.
      all: apply bad_longer, bad_now; unfold get_control; cbn [opt_file]; eapply bad_later; [apply parses_int; auto|]; apply bad_must; intros _; apply bad_now, bad_array; auto.
    + destruct W as [W|[[W _]|[W3 W]]]; try congruence. destruct fld as [[k l]|]; [|congruence]. destruct HF as (B & G1 & G2 & L).
      cbn [flag opt_file app]. change (bit 1 _) with false. change (bit 2 _) with true.
      eapply (bad_later _ _ []); [apply parses_ret|]. apply bad_now, bad_now. unfold get_fields.
      eapply bad_later; [apply parses_int; auto|]; apply bad_must; intros _; apply bad_now, bad_array; auto.
Qed.
End Object.
