(** PetIGA objects in formats that round. *)
From Coq Require Import ZArith List Bool Lia.
From Verif Require Import Num ModelNurbs ModelCad ModelIo SpecIo SpecSingle ProofIo ProofIo2 ProofIo3 ProofCad.
Import ListNotations.
Local Open Scope Z_scope.

Section General.
Context {N : Num}.
Variable junk : Z -> N.
Variable ty : types N.
Hypothesis Hty : types_ok ty.
(** What is read from a file with these contents. *)
Theorem read_file axes d cg fld : (1 <= length axes <= 3)%nat -> Forall (axis_ok ty) axes -> Z.of_nat (length axes) <= d <= 3 ->
  let sh := map a_size axes in
  opt_ok ty (Some (d, flatten (d + 1 :: sh) (fun j => cg (tl j) (hd 0 j)))) (Z.of_nat (length axes)) 3 ->
  (forall k g, fld = Some (k, g) -> 1 <= k /\ opt_ok ty (Some (k, flatten (k :: sh) (fun j => g (tl j) (hd 0 j)))) 1 k) ->
  exists nrb', petiga_read junk ty (file ty IGA_ID VEC_ID VEC_ID axes (Some (d, flatten (d + 1 :: sh) (fun j => cg (tl j) (hd 0 j))))
      (match fld with Some (k, g) => Some (k, flatten (k :: sh) (fun j => g (tl j) (hd 0 j))) | None => None end)) = Ok nrb' /\
    n_axes nrb' = map read_axis axes /\ n_comp nrb' = (match fld with Some (k, _) => 4 + k | None => 4 end) /\
    forall idx, in_shape sh idx -> (forall c, 0 <= c < d -> n_arr nrb' idx c = cg idx c) /\ n_arr nrb' idx 3 = cg idx d /\
      (forall c, d <= c < 3 -> n_arr nrb' idx c = n0 N) /\
      match fld with Some (k, g) => forall c, 0 <= c < k -> n_arr nrb' idx (4 + c) = nmul N (g idx c) (n_arr nrb' idx 3) | None => True end.
Proof.
  intros Hl HA Hd sh OC OF.
  assert (SS : Forall (fun s => 0 < s) sh).
  { apply Forall_forall. intros s I. apply in_map_iff in I. destruct I as (A & <- & I). rewrite Forall_forall in HA. destruct (HA A I). lia. }
  set (fl := match fld with Some (k, g) => Some (k, flatten (k :: sh) (fun j => g (tl j) (hd 0 j))) | None => None end).
  assert (OF' : opt_ok ty fl 1 (match fld with Some (k, _) => k | None => 1 end)).
  { unfold fl. destruct fld as [[k g]|]; [|exact I]. exact (proj2 (OF k g eq_refl)). }
  pose proof (proj1 (parses_file ty Hty axes _ fl _ Hl HA OC OF') []) as E. rewrite app_nil_r in E.
  unfold petiga_read. rewrite E. cbn [bind].
  assert (Es : map fst (map axis_value axes) = sh) by (rewrite map_map; reflexivity).
  assert (Ek : map (fun a : Z * (Z * vec N) => snd (snd a)) (map axis_value axes) = map (fun A => vec_of (knot_list A)) axes) by (rewrite map_map; reflexivity).
  rewrite Es, Ek. destruct (reshape_back (d + 1) sh cg SS) as (f & Ef & Hf); [lia|]. rewrite Ef. cbn [bind].
  assert (HD : exists D : option (Z * (list Z -> Z -> N)), (match fl with
       | Some (npd, l) => let* f := reshape_f npd sh l in Ok (Some (nd_of sh npd f))
       | None => Ok None end) = Ok (match D with Some (npd, f) => Some (nd_of sh npd f) | None => None end) /\
       match fld, D with
       | Some (k, g), Some (npd, f) => npd = k /\ forall idx c, in_shape sh idx -> 0 <= c < k -> f idx c = g idx c
       | None, None => True | _, _ => False end).
  { unfold fl. destruct fld as [[k g]|]; [|exists None; repeat split]. destruct (OF k g eq_refl) as [K _].
    destruct (reshape_back k sh g SS) as (f' & Ef' & Hf'); [lia|]. rewrite Ef'. exists (Some (k, f')). repeat split. exact Hf'. }
  destruct HD as (D & ED & HDf). rewrite ED. cbn [bind].
  destruct (init_read junk ty axes (fun idx c => if c <? d then f idx c else if c =? 3 then f idx d else n0 N) D Hl HA) as (nrb' & Ei & EA & En & EC4 & EF).
  exists nrb'. split; [exact Ei|]. split; [exact EA|]. split.
  { rewrite En. destruct fld as [[k g]|], D as [[npd f']|]; try contradiction; auto. destruct HDf as [-> _]. reflexivity. }
  intros idx I. split; [|split; [|split]].
  - intros c Hc. rewrite EC4 by lia. destruct (Z.ltb_spec c d); [|lia]. apply Hf; auto; lia.
  - rewrite EC4 by lia. destruct (Z.ltb_spec 3 d); [lia|]. apply Hf; auto; lia.
  - intros c Hc. rewrite EC4 by lia. destruct (Z.ltb_spec c d); [lia|]. destruct (Z.eqb_spec c 3); [lia|reflexivity].
  - destruct fld as [[k g]|], D as [[npd f']|]; try contradiction; auto. destruct HDf as [-> HDf]. intros c Hc. rewrite EF by lia.
    rewrite <- (HDf idx c I Hc). do 2 f_equal. lia.
Qed.
End General.

Lemma flat_enc {N : Num} (c : codec N) {A : Type} (f g : A -> N) (l : list A) : (forall x, In x l -> c_enc c (f x) = c_enc c (g x)) ->
  flat_map (c_enc c) (map f l) = flat_map (c_enc c) (map g l).
Proof. intros H. induction l as [|x l IH]; [reflexivity|]. cbn [map flat_map]. rewrite H, IH; auto; [intros; apply H; right; auto|left; auto]. Qed.
Lemma flatten_enc {N : Num} (c : codec N) sh (f g : list Z -> N) : Forall (fun s => 0 < s) sh -> (forall j, in_shape sh j -> c_enc c (f j) = c_enc c (g j)) ->
  flat_map (c_enc c) (flatten sh f) = flat_map (c_enc c) (flatten sh g).
Proof.
  intros SS H. unfold flatten. apply (flat_enc c (fun k => f (unravel sh k)) (fun k => g (unravel sh k))). intros k Hk. apply in_zseq in Hk. apply H. apply unravel_in; auto. lia.
Qed.
Lemma stable_lossless {N : Num} (c : codec N) x : stable c x -> lossless c (stored c x).
Proof. intros [H1 H2]. split; [rewrite H2; exact H1|]. rewrite H2. reflexivity. Qed.

Section Rounding.
Context {N : Num}.
Variable junk : Z -> N.
Variable ty : types N.
Hypothesis Hty : types_ok ty.
Definition stored_ax (A : axis N) : axis N := mkAxis (a_size A) (a_len A) (fun i => stored (t_real ty) (a_knots A i)).

Lemma axis_bytes A B : a_size B = a_size A -> a_len B = a_len A -> (forall i, 0 <= i < a_len A -> c_enc (t_real ty) (a_knots B i) = c_enc (t_real ty) (a_knots A i)) ->
  axis_file ty B = axis_file ty A.
Proof.
  intros E1 E2 H. unfold axis_file, knot_list, a_deg. rewrite E1, E2. do 2 f_equal. apply (flat_enc (t_real ty)). intros i I. apply in_zseq in I. apply H. lia.
Qed.
Lemma axes_bytes l l' : Forall2 (fun A B => axis_file ty B = axis_file ty A) l l' -> flat_map (axis_file ty) l' = flat_map (axis_file ty) l.
Proof. induction 1 as [|A B l l' E F IH]; [reflexivity|]. cbn [flat_map]. rewrite E, IH. reflexivity. Qed.

Variable nrb : nurbs N.
Variable d : Z.
Variable fields : bool.
Hypothesis Wr : writable ty nrb d fields.
Let sh := n_shape nrb.
Let rS := stored (t_scal ty).
Let withf := fields && (4 <? n_comp nrb).
Let cg idx c := rS (ctl_get nrb d idx c).
Let fg idx c := rS (fld_get nrb idx c).

Lemma wr_shape : Forall (fun s => 0 < s) sh.
Proof. apply Forall_forall. intros s I. apply in_map_iff in I. destruct I as (A & <- & I). destruct (wr_axis _ _ _ _ Wr A I). lia. Qed.
Lemma wr_axes_ok : Forall (axis_ok ty) (map stored_ax (n_axes nrb)).
Proof.
  apply Forall_forall. intros B I. apply in_map_iff in I. destruct I as (A & <- & I). destruct (wr_axis _ _ _ _ Wr A I) as (H1 & H2 & H3 & H4).
  split; [exact H1|]. split; [exact H2|]. split; [exact H3|]. intros i Hi. apply stable_lossless. apply H4. exact Hi.
Qed.
Lemma wr_sizes : map a_size (map stored_ax (n_axes nrb)) = sh.
Proof. rewrite map_map. reflexivity. Qed.
Lemma ctl_stable idx c : in_shape sh idx -> 0 <= c <= d -> stable (t_scal ty) (ctl_get nrb d idx c).
Proof. intros I Hc. pose proof (wr_nsd _ _ _ _ Wr). unfold ctl_get. apply (wr_control _ _ _ _ Wr); auto. destruct (Z.eqb_spec c d); lia. Qed.
Lemma fld_stable idx c : withf = true -> in_shape sh idx -> 0 <= c < n_comp nrb - 4 -> stable (t_scal ty) (fld_get nrb idx c).
Proof.
  unfold withf. intros H I Hc. apply andb_prop in H. destruct H as [H1 H2]. apply Z.ltb_lt in H2. unfold fld_get. apply (wr_fields _ _ _ _ Wr H1 H2); auto. lia.
Qed.
(** The bytes of the file are those of the stored numbers. *)
Lemma file_stored : petiga_file ty IGA_ID VEC_ID VEC_ID nrb (Some d) fields =
  file ty IGA_ID VEC_ID VEC_ID (map stored_ax (n_axes nrb)) (Some (d, flatten (d + 1 :: sh) (fun j => cg (tl j) (hd 0 j))))
    (if withf then Some (n_comp nrb - 4, flatten (n_comp nrb - 4 :: sh) (fun j => fg (tl j) (hd 0 j))) else None).
Proof.
  pose proof wr_shape as SS. pose proof (wr_nsd _ _ _ _ Wr) as Hd. pose proof (wr_dim _ _ _ _ Wr) as Hl. pose proof (wr_comp _ _ _ _ Wr) as Hc. rewrite petiga_file_eq. unfold file, ctl_part, fld_part. fold sh. fold withf.
  rewrite map_length. unfold sh. rewrite (ctl_values nrb d) by (auto; lia). f_equal. f_equal; [destruct withf; reflexivity|]. f_equal. f_equal; [|f_equal].
  - symmetry. apply axes_bytes. assert (F : Forall (fun A => axis_file ty (stored_ax A) = axis_file ty A) (n_axes nrb)).
    { apply Forall_forall. intros A I. destruct (wr_axis _ _ _ _ Wr A I) as (H1 & H2 & H3 & H4). apply axis_bytes; auto. intros i Hi. apply H4; auto. }
    clear - F. induction F; cbn [map]; constructor; auto.
  - cbn [opt_file]. unfold array_file. f_equal. f_equal. rewrite !flatten_length. f_equal.
    apply flatten_enc; [constructor; [lia|exact SS]|]. intros j Hj. apply in_shape_cons in Hj. destruct Hj as (c & idx & -> & Hj & I). cbn [hd tl]. symmetry. apply (ctl_stable idx c I). lia.
  - destruct withf eqn:Ew; [|reflexivity]. rewrite (fld_values nrb) by (auto; lia). cbn [opt_file]. unfold array_file. f_equal. f_equal. rewrite !flatten_length. f_equal.
    assert (4 < n_comp nrb) by (unfold withf in Ew; apply andb_prop in Ew; destruct Ew as [_ Ew]; apply Z.ltb_lt in Ew; exact Ew).
    apply flatten_enc; [constructor; [lia|exact SS]|]. intros j Hj. apply in_shape_cons in Hj. destruct Hj as (c & idx & -> & Hj & I). cbn [hd tl]. symmetry. apply (fld_stable idx c Ew I Hj).
Qed.
Lemma opt_stored k (f : list Z -> Z -> N) lo hi : 1 <= k -> lo <= k <= hi -> fits (t_int ty) k -> forall e, e = k \/ e = k + 1 ->
  fits (t_int ty) (e * fold_right Z.mul 1 sh) -> (forall idx c, in_shape sh idx -> 0 <= c < e -> lossless (t_scal ty) (f idx c)) ->
  opt_ok ty (Some (k, flatten (e :: sh) (fun j => f (tl j) (hd 0 j)))) lo hi.
Proof.
  intros K B F1 e He F2 L. pose proof wr_shape as SS. cbn [opt_ok]. split; [lia|]. split; [exact F1|]. split.
  - rewrite flatten_length, Z2Nat.id; [exact F2|]. apply prod_nonneg. constructor; [lia|]. eapply Forall_impl; [|exact SS]. intros; cbn in *; lia.
  - apply flatten_in; [constructor; [lia|exact SS]|]. intros j Hj. apply in_shape_cons in Hj. destruct Hj as (c & idx & -> & Hj & I). cbn [hd tl]. apply L; auto.
Qed.
Theorem stored_back : exists nrb', petiga_read junk ty (petiga_file ty IGA_ID VEC_ID VEC_ID nrb (Some d) fields) = Ok nrb' /\
  Forall2 (stored_axis ty) (n_axes nrb) (n_axes nrb') /\ n_comp nrb' = (if fields then n_comp nrb else 4) /\
  forall idx, in_shape (n_shape nrb) idx ->
    (forall c, 0 <= c < d \/ c = 3 -> n_arr nrb' idx c = rS (n_arr nrb idx c)) /\ (forall c, d <= c < 3 -> n_arr nrb' idx c = n0 N) /\
    forall c, 4 <= c < n_comp nrb' -> n_arr nrb' idx c = nmul N (rS (ndiv N (n_arr nrb idx c) (n_arr nrb idx 3))) (n_arr nrb' idx 3).
Proof.
  pose proof wr_shape as SS. pose proof (wr_nsd _ _ _ _ Wr) as Hd. pose proof (wr_dim _ _ _ _ Wr) as Hl. pose proof (wr_comp _ _ _ _ Wr) as Hc.
  rewrite file_stored.
  set (fld := if withf then Some (n_comp nrb - 4, fg) else None).
  destruct (read_file junk ty Hty (map stored_ax (n_axes nrb)) d cg fld) as (nrb' & E & EA & EC & EV); rewrite ?map_length; auto.
  - exact wr_axes_ok.
  - rewrite wr_sizes. apply opt_stored; try lia; [apply fits_4; [apply Hty|lia]| |].
    + exact (wr_size _ _ _ _ Wr).
    + intros idx c I Hj. apply stable_lossless, ctl_stable; auto. lia.
  - intros k g Q. unfold fld in Q. destruct withf eqn:Ew; [|discriminate]. injection Q as <- <-. pose proof Ew as Ew'. unfold withf in Ew'. apply andb_prop in Ew'. destruct Ew' as [W1 W2]. apply Z.ltb_lt in W2.
    destruct (wr_fields _ _ _ _ Wr W1 W2) as (F1 & F2 & _). split; [lia|]. rewrite wr_sizes. apply opt_stored; try lia; auto.
    intros idx c I Hj. apply stable_lossless, fld_stable; auto.
  - rewrite wr_sizes in *. exists nrb'. split; [|split; [|split]].
    + unfold fld in E. destruct withf; exact E.
    + rewrite EA, map_map. assert (F : Forall (fun A => stored_axis ty A (read_axis (stored_ax A))) (n_axes nrb)).
      { apply Forall_forall. intros A I. pose proof wr_axes_ok as W. rewrite Forall_forall in W. specialize (W (stored_ax A) (in_map _ _ _ I)).
        destruct (read_axis_same ty _ W) as (S1 & S2 & S3). split; [symmetry; exact S1|]. split; [symmetry; exact S2|]. intros i Hi. rewrite <- S3 by exact Hi. reflexivity. }
      clear - F. induction F; cbn [map]; constructor; auto.
    + rewrite EC. unfold fld, withf. destruct fields; [|reflexivity]. cbn [andb]. destruct (Z.ltb_spec 4 (n_comp nrb)); lia.
    + intros idx I. destruct (EV idx I) as (V1 & V2 & V3 & V4). split; [|split].
      * intros c [Hc'| ->]; [rewrite V1 by lia|rewrite V2]; unfold cg, ctl_get.
        -- destruct (Z.eqb_spec c d); [lia|reflexivity].
        -- rewrite Z.eqb_refl. reflexivity.
      * exact V3.
      * intros c Hc'. unfold fld in V4, EC. destruct withf; [|lia]. specialize (V4 (c - 4) ltac:(lia)). replace (4 + (c - 4)) with c in V4 by lia. rewrite V4. unfold fg, fld_get. do 2 f_equal. f_equal. f_equal. lia.
Qed.
(** Writing what was read gives the same file. *)
Theorem stored_again nrb' : petiga_read junk ty (petiga_file ty IGA_ID VEC_ID VEC_ID nrb (Some d) fields) = Ok nrb' ->
  (forall idx c, fields = true -> in_shape (n_shape nrb) idx -> 4 <= c < n_comp nrb ->
     let q := rS (ndiv N (n_arr nrb idx c) (n_arr nrb idx 3)) in let w := rS (n_arr nrb idx 3) in ndiv N (nmul N q w) w = q) ->
  petiga_file ty IGA_ID VEC_ID VEC_ID nrb' (Some d) fields = petiga_file ty IGA_ID VEC_ID VEC_ID nrb (Some d) fields.
Proof.
  intros E HQ. destruct stored_back as (n2 & E2 & SA & EC & EV). rewrite E in E2. injection E2 as <-.
  pose proof wr_shape as SS. pose proof (wr_nsd _ _ _ _ Wr) as Hd. pose proof (wr_dim _ _ _ _ Wr) as Hl. pose proof (wr_comp _ _ _ _ Wr) as Hc.
  assert (SH : n_shape nrb' = sh).
  { unfold sh, n_shape. clear - SA. induction SA as [|A B l l' (S1 & _) SA IH]; [reflexivity|]. cbn [map]. rewrite S1, IH. reflexivity. }
  rewrite file_stored, petiga_file_eq. unfold file, ctl_part, fld_part. rewrite SH. rewrite <- SH in SS.
  assert (W : (fields && (4 <? n_comp nrb'))%bool = withf). { unfold withf. rewrite EC. destruct fields; reflexivity. }
  rewrite W. rewrite map_length. assert (LA : length (n_axes nrb') = length (n_axes nrb)) by (clear - SA; induction SA; cbn; auto). rewrite LA. rewrite <- SH. rewrite (ctl_values nrb' d) by (auto; lia).
  f_equal. f_equal; [destruct withf; reflexivity|]. f_equal. f_equal; [|f_equal].
  - symmetry. apply axes_bytes. clear - SA. induction SA as [|A B l l' (S1 & S2 & S3) SA IH]; [constructor|]. cbn [map]. constructor; auto.
    apply axis_bytes; [symmetry; exact S1|symmetry; exact S2|]. intros i Hi. rewrite S2 in Hi. cbn [stored_ax a_knots]. rewrite S3 by auto. reflexivity.
  - cbn [opt_file]. unfold array_file. f_equal. f_equal. rewrite !flatten_length. f_equal.
    apply flatten_enc; [constructor; [lia|exact SS]|]. intros j Hj. apply in_shape_cons in Hj. destruct Hj as (c & idx & -> & Hj & I). cbn [hd tl]. rewrite SH in I.
    destruct (EV idx I) as (V1 & _ & _). unfold cg, ctl_get. rewrite V1; [reflexivity|]. destruct (Z.eqb_spec c d); lia.
  - destruct withf eqn:Ew; [|reflexivity]. unfold withf in Ew. apply andb_prop in Ew. destruct Ew as [W1 W2]. apply Z.ltb_lt in W2. rewrite W1 in *.
    rewrite (fld_values nrb') by (auto; lia). rewrite EC. cbn [opt_file]. unfold array_file. f_equal. f_equal. rewrite !flatten_length. f_equal.
    apply flatten_enc; [constructor; [lia|exact SS]|]. intros j Hj. apply in_shape_cons in Hj. destruct Hj as (c & idx & -> & Hj & I). cbn [hd tl]. rewrite SH in I.
    destruct (EV idx I) as (V1 & _ & V4). unfold fg, fld_get. rewrite V4 by lia. rewrite V1 by lia. f_equal. apply (HQ idx (4 + c)); auto. lia.
Qed.
End Rounding.
