(** VTK files. *)
From Coq Require Import String Ascii ZArith List Bool Lia.
From Verif Require Import Num ModelNurbs ModelCad ModelIo SpecIo SpecVtk ProofIo ProofIo2 ProofIo3 ProofIo4 ProofCompat2.
Import ListNotations.
Local Open Scope Z_scope.

Lemma mapM_exact {A B : Type} (f : A -> res B) (g : A -> B) l : (forall x, In x l -> f x = Ok (g x)) -> mapM f l = Ok (map g l).
Proof. induction l; intros H; [reflexivity|]. cbn [mapM map]. rewrite H by (left; auto). cbn [bind]. rewrite IHl by (intros; apply H; right; auto). reflexivity. Qed.
Lemma text_app a b : text (a ++ b) = text a ++ text b.
Proof. unfold text. rewrite <- map_app. f_equal. induction a; cbn; auto. f_equal. auto. Qed.
Lemma flat_map_enum {A : Type} (f : Z * A -> list Z) (l : list A) d : flat_map f (enum l) = concat (map (fun i => f (Z.of_nat i, nth i l d)) (seq 0 (length l))).
Proof.
  unfold enum. assert (G : forall (l : list A) k, flat_map f (combine (zseq (length l) (Z.of_nat k)) l) = concat (map (fun i => f (Z.of_nat (k + i), nth i l d)) (seq 0 (length l)))).
  { clear l. induction l as [|x l IH]; intros k; [reflexivity|]. cbn [length zseq combine flat_map seq map concat nth]. rewrite Nat.add_0_r. f_equal.
    replace (Z.of_nat k + 1) with (Z.of_nat (S k)) by lia. rewrite IH, <- seq_shift, map_map. f_equal. apply map_ext. intros i. do 2 f_equal. lia. }
  exact (G l 0%nat).
Qed.

Lemma attr_name_spec name dflt i : attr_name name dflt i = array_name name dflt i.
Proof.
  assert (H : forall s, no_blanks s = underscored s).
  { unfold underscored. induction s as [|c s IH]; [reflexivity|]. cbn [no_blanks list_ascii_of_string map string_of_list_ascii]. rewrite IH. f_equal.
    destruct (Ascii.eqb_spec c " "%char), (Ascii.ascii_dec c " "%char); congruence. }
  unfold attr_name, array_name. rewrite H. f_equal. destruct (String.eqb_spec name ""%string), (string_dec name ""%string); congruence.
Qed.
Section Vtk.
Context {N : Num}.
Variables (junk : Z -> N) (junk2 : Z -> Z -> N) (junk3 : Z -> Z -> Z -> N) (junkS : Z -> Z).

(** What VTK.write passes to the evaluation. *)
Definition vtk_fields (fields : option (nd N)) (scalars : list (string * Z)) (vectors : list (string * list Z)) : farg N :=
  match scalars, vectors with [], [] => FNo | _, _ => match fields with None => FYes | Some F => FArr F end end.
Theorem vtk_layout cd title nrb control fields scalars vectors sampler brks C F nf :
  (1 <= length (n_axes nrb) <= 3)%nat -> length brks = length (n_axes nrb) ->
  (forall a, (a < length (n_axes nrb))%nat -> breaks nrb (Z.of_nat a) = Ok (nth a brks [])) ->
  let us := map sampler brks in let lens := map (fun l => Z.of_nat (length l)) us in
  Forall (fun l => l <> []) us ->
  let fa := vtk_fields fields scalars vectors in
  call junk junk2 junk3 junkS nrb (map (fun l => Some (vec_of l)) us) fa = Ok (C, F) ->
  (exists f, call_array nrb fa = Ok (nf + 4, f)) ->
  (forall s, In s scalars -> - nf <= snd s < nf) -> (forall v, In v vectors -> (length (snd v) <= 3)%nat /\ forall j, In j (snd v) -> - nf <= j < nf) ->
  let f := match F with Some f => f | None => fun _ _ => n0 N end in
  vtk_write junk junk2 junk3 junkS cd title nrb control fields scalars vectors sampler =
    Ok (vtk_head title ++ (if control then vtk_points (c_enc cd) lens C else vtk_coords (c_enc cd) lens us) ++ vtk_data (c_enc cd) lens f nf scalars vectors).
Proof.
  intros Hd Hb HB us lens Hne fa EC [fA EA] HS HV f.
  assert (Pl : Forall (fun s => 0 < s) lens).
  { unfold lens. apply Forall_forall. intros s I. apply in_map_iff in I. destruct I as (l & <- & I). rewrite Forall_forall in Hne. specialize (Hne l I). destruct l; [congruence|cbn; lia]. }
  unfold vtk_write.
  assert (EB : mapM (breaks nrb) (zseq (length (n_axes nrb)) 0) = Ok brks).
  { rewrite (mapM_exact _ (fun a => nth (Z.to_nat a) brks [])).
    - f_equal. rewrite <- Hb. clear. induction brks as [|x l IH] using rev_ind; [reflexivity|]. rewrite app_length, Nat.add_comm. cbn [length Nat.add].
      rewrite zseq_S, map_app. cbn [map]. rewrite Z.add_0_l, Nat2Z.id, app_nth2, Nat.sub_diag by lia. cbn [nth]. f_equal. rewrite <- IH at 2.
      apply map_ext_in. intros a Ha. apply in_zseq in Ha. rewrite app_nth1 by lia. reflexivity.
    - intros a Ha. apply in_zseq in Ha. rewrite <- (HB (Z.to_nat a)) by lia. f_equal. lia. }
  rewrite EB. cbn [bind]. cbv zeta. fold us lens.
  change (if match scalars with | [] => match vectors with | [] => false | _ :: _ => true end | _ :: _ => true end then match fields with | Some F0 => FArr F0 | None => FYes end else FNo)
    with (if match scalars, vectors with [], [] => false | _, _ => true end then match fields with | Some F0 => FArr F0 | None => FYes end else FNo).
  assert (Efa : (if match scalars, vectors with [], [] => false | _, _ => true end then match fields with | Some F0 => FArr F0 | None => FYes end else FNo) = fa).
  { unfold fa, vtk_fields. destruct scalars, vectors; reflexivity. }
  rewrite Efa, EA. cbn [bind]. rewrite EC. cbn [bind fst snd].
  (* with data, there are field values *)
  assert (HF : forall x : bool, x = true -> match scalars, vectors with [], [] => false | _, _ => true end = x -> exists g, F = Some g).
  { intros x -> X. assert (fa <> FNo) by (unfold fa, vtk_fields; destruct scalars, vectors; try discriminate; destruct fields; discriminate).
    unfold call in EC. destruct (eval_args _ _ _) as [xs|]; [|discriminate]. cbn [bind] in EC. rewrite EA in EC. cbn [bind] in EC.
    destruct (py_EvaluateAll _ _ _ _ _ _ _) as [g|]; [|discriminate]. cbn [bind] in EC. destruct fa; [congruence| |]; injection EC as _ <-; eauto. }
  set (npts := prod lens). assert (Enp : npts = points_total lens).
  { unfold points_total, npts. rewrite grid_order_eq by auto. rewrite map_length, zseq_length, Z2Nat.id; auto. pose proof (prod_pos _ Pl). lia. }
  set (nf' := match F with Some _ => nf + 4 - 4 | None => 0 end).
  set (col := fun index => let* a := py_axis nf' index in Ok (fun k => match F with Some F0 => F0 | None => fun _ _ => n0 N end (unravel lens k) (Z.of_nat a))).
  assert (Ecol : F <> None -> forall j, - nf <= j < nf -> col j = Ok (fun k => f (unravel lens k) (column nf j))).
  { intros HFn j Hj. unfold col, nf'. destruct F as [g|]; [|congruence]. replace (nf + 4 - 4) with nf by lia. unfold py_axis.
    destruct (Z.leb_spec (- nf) j); [|lia]. destruct (Z.ltb_spec j nf); [|lia]. cbn [andb bind]. unfold column. destruct (Z.ltb_spec j 0); do 2 rewrite ?Z2Nat.id by lia; reflexivity. }
  match goal with |- context [mapM ?fn scalars] => assert (Es : mapM fn scalars =
     Ok (map (fun s => (fst s, map (fun idx => f idx (column nf (snd s))) (grid_order lens))) scalars)) end.
  { apply mapM_exact. intros s Is. fold (col (snd s)). rewrite Ecol; [|destruct (HF true eq_refl) as [g ->]; [destruct scalars; [contradiction|reflexivity]|discriminate]|auto].
    cbn [bind]. rewrite grid_order_eq, map_map by auto. reflexivity. }
  rewrite Es. cbn [bind].
  match goal with |- context [mapM ?fn vectors] => assert (Ev : mapM fn vectors =
     Ok (map (fun v => (fst v, flat_map (fun idx => map (fun j => f idx (column nf j)) (snd v) ++ repeat (n0 N) (3 - length (snd v))) (grid_order lens))) vectors)) end.
  { apply mapM_exact. intros v Iv. destruct (HV v Iv) as [L3 Lj].
    assert (HFn : F <> None) by (destruct (HF true eq_refl) as [g ->]; [destruct scalars, vectors; [contradiction|reflexivity..]|discriminate]).
    fold col. rewrite (mapM_exact col (fun j k => f (unravel lens k) (column nf j))) by (intros j Ij; apply Ecol; auto). cbn [bind]. rewrite map_length.
    destruct (Nat.leb_spec (length (snd v)) 3); [|lia]. f_equal. f_equal. rewrite grid_order_eq by auto. rewrite flat_map_map. apply flat_map_ext. intros k. f_equal. rewrite map_map. reflexivity. }
  rewrite Ev. cbn [bind]. f_equal.
  assert (EL : forall s rest, text s ++ text eol ++ rest = line s ++ rest) by (intros; unfold line; rewrite <- app_assoc; reflexivity).
  assert (EN : forall s, text s ++ text eol = line s) by reflexivity.
  assert (Ed : forall i, (i < 3)%nat -> nth i (lens ++ repeat 1 (3 - length (n_axes nrb))) 0 = nth i lens 1).
  { intros i Hi. assert (Ll : length lens = length (n_axes nrb)) by (unfold lens, us; rewrite !map_length; auto).
    destruct (Nat.lt_ge_cases i (length lens)); [rewrite app_nth1 by auto; apply nth_indep; auto|].
    rewrite app_nth2, (nth_overflow lens) by auto. rewrite (nth_indep _ 0 1) by (rewrite repeat_length; lia). apply nth_repeat. }
  rewrite !EL. unfold vtk_head. rewrite <- !app_assoc. do 3 f_equal.
  rewrite !Ed by lia. f_equal.
  - destruct control.
    + unfold vtk_points, vtk_dimensions, size_along. rewrite !EL, ?EN. rewrite <- ?app_assoc. rewrite ?EL. rewrite <- Enp. do 3 f_equal.
      unfold put. rewrite (flatten_grid 3 lens C) by (auto; lia). rewrite flat_map_flat_map. unfold text at 1, eol. f_equal.
      apply flat_map_ext. intros idx. change (Z.to_nat 3) with 3%nat. cbn [zseq map flat_map]. rewrite app_nil_r. reflexivity.
    + unfold vtk_coords, vtk_dimensions, size_along. rewrite !EL, ?EN, <- ?app_assoc. do 2 f_equal.
      assert (Lu : length us = length (n_axes nrb)) by (unfold us; rewrite map_length; auto).
      destruct us as [|u1 [|u2 [|u3 [|u4 us']]]]; cbn [length] in Lu; try lia; rewrite <- Lu; cbn [Nat.sub repeat app combine flat_map nth];
        rewrite ?app_nil_r, ?EL, <- ?app_assoc; unfold put; cbn [fst snd flat_map]; rewrite ?app_nil_r; reflexivity.
  - unfold vtk_data. rewrite (flat_map_enum _ _ (""%string, [])), (flat_map_enum _ _ (""%string, [])). rewrite !map_length, <- Enp.
    assert (X1 : forall i, (i < length scalars)%nat -> nth i (map (fun s => (fst s, map (fun idx => f idx (column nf (snd s))) (grid_order lens))) scalars) (""%string, []) =
       (fst (nth i scalars (""%string, 0)), map (fun idx => f idx (column nf (snd (nth i scalars (""%string, 0))))) (grid_order lens))).
    { intros i Hi. rewrite (nth_indep _ (""%string, []) ((fun s => (fst s, map (fun idx => f idx (column nf (snd s))) (grid_order lens))) (""%string, 0))) by (rewrite map_length; auto).
      exact (map_nth (fun s => (fst s, map (fun idx => f idx (column nf (snd s))) (grid_order lens))) scalars (""%string, 0) i). }
    assert (X2 : forall i, (i < length vectors)%nat -> nth i (map (fun v => (fst v, flat_map (fun idx => map (fun j => f idx (column nf j)) (snd v) ++ repeat (n0 N) (3 - length (snd v))) (grid_order lens))) vectors) (""%string, []) =
       let v := nth i vectors (""%string, []) in (fst v, flat_map (fun idx => map (fun j => f idx (column nf j)) (snd v) ++ repeat (n0 N) (3 - length (snd v))) (grid_order lens))).
    { intros i Hi. rewrite (nth_indep _ (""%string, []) ((fun v => (fst v, flat_map (fun idx => map (fun j => f idx (column nf j)) (snd v) ++ repeat (n0 N) (3 - length (snd v))) (grid_order lens))) (""%string, []))) by (rewrite map_length; auto).
      exact (map_nth (fun v => (fst v, flat_map (fun idx => map (fun j => f idx (column nf j)) (snd v) ++ repeat (n0 N) (3 - length (snd v))) (grid_order lens))) vectors (""%string, []) i). }
    assert (Y1 : map (fun i => text ("SCALARS " ++ attr_name (fst (snd (Z.of_nat i, nth i (map (fun s => (fst s, map (fun idx => f idx (column nf (snd s))) (grid_order lens))) scalars) (""%string, [])))) "scalars" (fst (Z.of_nat i, nth i (map (fun s => (fst s, map (fun idx => f idx (column nf (snd s))) (grid_order lens))) scalars) (""%string, []))) ++ " double") ++ text eol ++ text "LOOKUP_TABLE default" ++ text eol ++
           put cd (snd (snd (Z.of_nat i, nth i (map (fun s => (fst s, map (fun idx => f idx (column nf (snd s))) (grid_order lens))) scalars) (""%string, [])))) ++ text eol) (seq 0 (length scalars)) =
        map (fun i => let s := nth i scalars (""%string, 0) in vtk_scalar (c_enc cd) lens f nf (Z.of_nat i) (fst s) (snd s)) (seq 0 (length scalars))).
    { apply map_ext_in. intros i Hi. apply in_seq in Hi. rewrite X1 by lia. cbn [fst snd]. unfold vtk_scalar. rewrite <- attr_name_spec, !EL. unfold put. rewrite flat_map_map. reflexivity. }
    assert (Y2 : map (fun i => text ("VECTORS " ++ attr_name (fst (snd (Z.of_nat i, nth i (map (fun v => (fst v, flat_map (fun idx => map (fun j => f idx (column nf j)) (snd v) ++ repeat (n0 N) (3 - length (snd v))) (grid_order lens))) vectors) (""%string, [])))) "vectors" (fst (Z.of_nat i, nth i (map (fun v => (fst v, flat_map (fun idx => map (fun j => f idx (column nf j)) (snd v) ++ repeat (n0 N) (3 - length (snd v))) (grid_order lens))) vectors) (""%string, []))) ++ " double") ++ text eol ++
           put cd (snd (snd (Z.of_nat i, nth i (map (fun v => (fst v, flat_map (fun idx => map (fun j => f idx (column nf j)) (snd v) ++ repeat (n0 N) (3 - length (snd v))) (grid_order lens))) vectors) (""%string, [])))) ++ text eol) (seq 0 (length vectors)) =
        map (fun i => let v := nth i vectors (""%string, []) in vtk_vector (c_enc cd) lens f nf (Z.of_nat i) (fst v) (snd v)) (seq 0 (length vectors))).
    { apply map_ext_in. intros i Hi. apply in_seq in Hi. rewrite X2 by lia. cbn [fst snd]. unfold vtk_vector. rewrite <- attr_name_spec, !EL. unfold put. rewrite flat_map_flat_map. reflexivity. }
    rewrite Y1, Y2. destruct scalars, vectors; rewrite ?EL; reflexivity.
Qed.
End Vtk.
