(** The number of bytes of PetIGA files. *)
From Coq Require Import ZArith List Bool Lia.
From Verif Require Import Num ModelNurbs ModelIo ModelFloat ModelSingle SpecIo ProofIo ProofIo2 ProofIo3 ProofIo6.
Import ListNotations.
Local Open Scope Z_scope.

Lemma flat_map_width {A B} (f : A -> list B) w l : (forall x, In x l -> length (f x) = w) -> length (flat_map f l) = (length l * w)%nat.
Proof. induction l as [|x l IH]; intros H; cbn; auto. rewrite app_length, H by (left; auto). rewrite IH by (intros; apply H; right; auto). reflexivity. Qed.
Lemma int_bytes_width w x : length (int_bytes w x) = w.
Proof. unfold int_bytes. rewrite map_length, rev_length, zseq_length. reflexivity. Qed.
Lemma grid_order_size sh : Forall (fun s => 0 < s) sh -> Z.of_nat (length (grid_order sh)) = fold_right Z.mul 1 sh.
Proof.
  induction 1 as [|s sh Hs F IH]; cbn [grid_order fold_right]; auto. rewrite (flat_map_width _ (Z.to_nat s)) by (intros; rewrite map_length, zseq_length; auto).
  rewrite Nat2Z.inj_mul, IH. lia.
Qed.
Section Size.
Context {N : Num}.
Variable ty : types N.
Hypothesis Hr : forall x, length (c_enc (t_real ty) x) = c_width (t_real ty).
Hypothesis Hs : forall x, length (c_enc (t_scal ty) x) = c_width (t_scal ty).
Lemma section_size id head nrb f w : Forall (fun s => 0 < s) (n_shape nrb) -> 0 <= w -> (forall idx, Z.of_nat (length (f idx)) = w) ->
  Z.of_nat (length (section ty id head nrb f)) = Z.of_nat (t_int ty) * 3 + Z.of_nat (c_width (t_scal ty)) * (fold_right Z.mul 1 (n_shape nrb) * w).
Proof.
  intros F Hw H. unfold section. rewrite !app_length, !int_bytes_width. rewrite (flat_map_width _ (c_width (t_scal ty))) by auto.
  rewrite (flat_map_width f (Z.to_nat w)) by (intros x _; specialize (H x); lia). rewrite !Nat2Z.inj_add, !Nat2Z.inj_mul, grid_order_size, Z2Nat.id by auto. ring.
Qed.
Theorem size_of_file id1 id2 id3 nrb nsd fields : Forall (fun A => 0 < a_size A /\ 0 <= a_len A) (n_axes nrb) -> match nsd with Some d => 0 <= d | None => True end ->
  Z.of_nat (length (petiga_file ty id1 id2 id3 nrb nsd fields)) =
  file_size (Z.of_nat (t_int ty)) (Z.of_nat (c_width (t_real ty))) (Z.of_nat (c_width (t_scal ty))) (map a_size (n_axes nrb)) (map a_len (n_axes nrb)) (n_comp nrb) nsd fields.
Proof.
  intros HA Hd. assert (HS : Forall (fun s => 0 < s) (n_shape nrb)).
  { apply Forall_forall. intros s I. apply in_map_iff in I. destruct I as (A & <- & I). rewrite Forall_forall in HA. apply HA; auto. }
  unfold petiga_file, file_size. rewrite !app_length, !int_bytes_width. rewrite map_length.
  assert (K : Z.of_nat (length (flat_map (fun A => int_bytes (t_int ty) (a_deg A) ++ int_bytes (t_int ty) (a_len A) ++ flat_map (c_enc (t_real ty)) (map (a_knots A) (zseq (Z.to_nat (a_len A)) 0))) (n_axes nrb)))
    = Z.of_nat (t_int ty) * (2 * Z.of_nat (length (n_axes nrb))) + Z.of_nat (c_width (t_real ty)) * fold_right Z.add 0 (map a_len (n_axes nrb))).
  { clear HS Hd. induction HA as [|A l [H1 H2] F IH]; [cbn; lia|]. cbn [flat_map length map fold_right]. rewrite !app_length, !int_bytes_width.
    rewrite (flat_map_width _ (c_width (t_real ty))) by auto. rewrite map_length, zseq_length. rewrite !Nat2Z.inj_add, IH, Nat2Z.inj_mul, Z2Nat.id, Nat2Z.inj_succ by auto. unfold Z.succ. ring. }
  change (map a_size (n_axes nrb)) with (n_shape nrb). rewrite !Nat2Z.inj_add, K.
  assert (C : Z.of_nat (length match nsd with Some d => section ty id2 d nrb (fun idx => map (n_arr nrb idx) (zseq (Z.to_nat d) 0 ++ [3])) | None => [] end)
    = match nsd with Some d => Z.of_nat (t_int ty) * 3 + Z.of_nat (c_width (t_scal ty)) * (fold_right Z.mul 1 (n_shape nrb) * (d + 1)) | None => 0 end).
  { destruct nsd as [d|]; [|reflexivity]. apply section_size; auto; [lia|]. intros idx. rewrite map_length, app_length, zseq_length. cbn. lia. }
  rewrite C. destruct (fields && (4 <? n_comp nrb)) eqn:E.
  - apply andb_prop in E. destruct E as [_ E]. apply Z.ltb_lt in E.
    rewrite (section_size id3 _ nrb _ (n_comp nrb - 4)) by (auto; try lia; intros; rewrite map_length, zseq_length; lia). ring.
  - cbn [length]. change (Z.of_nat 0) with 0. ring.
Qed.
End Size.
Theorem double_size complex long (nrb : nurbs Dn) (control fields : bool) (nsd : option Z) file :
  Forall (fun A => 0 < a_size A /\ 0 <= a_len A) (n_axes nrb) -> 4 <= n_comp nrb ->
  let d := match nsd with Some d => d | None => Z.of_nat (length (n_axes nrb)) end in
  (control = true -> Z.of_nat (length (n_axes nrb)) <= d <= 3) ->
  petiga_write (petiga_types complex long) nrb control fields nsd = Ok file ->
  Z.of_nat (length file) = file_size (if long then 8 else 4) 8 (if complex then 16 else 8) (map a_size (n_axes nrb)) (map a_len (n_axes nrb)) (n_comp nrb) (if control then Some d else None) fields.
Proof.
  intros HA Hc d Hd E. rewrite petiga_written in E; auto; [|eapply Forall_impl; [|exact HA]; cbn; tauto]. injection E as <-. fold d. rewrite size_of_file; auto.
  - f_equal; [destruct long; reflexivity|destruct complex; reflexivity].
  - intros x. destruct complex; cbn; rewrite ?app_length, ?be_length; reflexivity.
  - destruct control; auto. specialize (Hd eq_refl). lia.
Qed.
Theorem single_size complex long (nrb : nurbs Dn) (control fields : bool) (nsd : option Z) file :
  Forall (fun A => 0 < a_size A /\ 0 <= a_len A) (n_axes nrb) -> 4 <= n_comp nrb ->
  let d := match nsd with Some d => d | None => Z.of_nat (length (n_axes nrb)) end in
  (control = true -> Z.of_nat (length (n_axes nrb)) <= d <= 3) ->
  petiga_write (single_types complex long) nrb control fields nsd = Ok file ->
  Z.of_nat (length file) = file_size (if long then 8 else 4) 4 (if complex then 8 else 4) (map a_size (n_axes nrb)) (map a_len (n_axes nrb)) (n_comp nrb) (if control then Some d else None) fields.
Proof.
  intros HA Hc d Hd E. rewrite petiga_written in E; auto; [|eapply Forall_impl; [|exact HA]; cbn; tauto]. injection E as <-. fold d. rewrite size_of_file; auto.
  - f_equal; [destruct long; reflexivity|destruct complex; reflexivity].
  - intros x. destruct complex; cbn; rewrite ?app_length, ?be_length; reflexivity.
  - destruct control; auto. specialize (Hd eq_refl). lia.
Qed.
