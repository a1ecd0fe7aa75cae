(** PetIGA objects: what is written, what is read back, what is rejected. *)
From Coq Require Import ZArith List Bool Lia.
From Verif Require Import Num ModelNurbs ModelCad ModelIo SpecIo ProofIo ProofIo2 ProofCad ProofCompat2.
Import ListNotations.
Local Open Scope Z_scope.

Lemma shape_eqb_longer a x : shape_eqb (a ++ [x]) a = false.
Proof. induction a; [reflexivity|]. cbn. rewrite IHa. apply andb_false_r. Qed.
Lemma forall_pos (l : list Z) : Forall (fun s => 2 <= s) l -> Forall (fun s => 0 < s) l.
Proof. apply Forall_impl. intros; lia. Qed.

Section Object.
Context {N : Num}.
Variable junk : Z -> N.
Variable ty : types N.
Hypothesis Hty : types_ok ty.

Definition read_axis (A : axis N) : axis N := mkAxis (a_size A) (Z.of_nat (length (knot_list A))) (v_get (vec_of (knot_list A))).
Lemma read_axis_same A : axis_ok ty A -> same_axis A (read_axis A).
Proof.
  intros HA. pose proof (knot_list_length ty A HA) as L. split; [reflexivity|]. split; [symmetry; exact L|]. intros i Hi.
  cbn. unfold knot_list. rewrite (nth_indep _ (n0 N) (a_knots A 0)) by (fold (knot_list A); lia). rewrite (map_nth (a_knots A)), nth_zseq by lia. f_equal. lia.
Qed.
Lemma zip_read axes : Forall (axis_ok ty) axes -> zip_axes (map a_size axes) (map (fun A => vec_of (knot_list A)) axes) = map read_axis axes.
Proof. induction 1; [reflexivity|]. cbn [map zip_axes]. f_equal. auto. Qed.

Lemma init_read axes C D : (1 <= length axes <= 3)%nat -> Forall (axis_ok ty) axes ->
  exists nrb', init junk (map (fun A => vec_of (knot_list A)) axes) (Some (nd_of (map a_size axes) 4 C))
      (match D with Some (npd, f) => Some (nd_of (map a_size axes) npd f) | None => None end) None = Ok nrb' /\
    n_axes nrb' = map read_axis axes /\ n_comp nrb' = (match D with Some (npd, _) => 4 + npd | None => 4 end) /\
    (forall idx c, 0 <= c < 4 -> n_arr nrb' idx c = C idx c) /\
    match D with Some (_, f) => forall idx c, 4 <= c -> n_arr nrb' idx c = nmul N (f idx (c - 4)) (n_arr nrb' idx 3) | None => True end.
Proof.
  intros Hd HA. assert (La : length (map (fun A : axis N => vec_of (knot_list A)) axes) = length axes) by apply map_length.
  assert (Ls : length (map a_size axes) = length axes) by apply map_length.
  unfold init. rewrite La. destruct (Z.leb_spec 1 (Z.of_nat (length axes))); [|lia]. destruct (Z.leb_spec (Z.of_nat (length axes)) 3); [|lia].
  unfold assert at 1 2. cbn [bind].
  assert (Ek : forallb (fun k : vec N => 4 <=? v_len k) (map (fun A => vec_of (knot_list A)) axes) = true).
  { apply forallb_forall. intros k Hk. apply in_map_iff in Hk. destruct Hk as (A & <- & I). rewrite Forall_forall in HA. specialize (HA A I).
    cbn [vec_of v_len]. rewrite (knot_list_length ty A HA). destruct HA as (? & ? & _). unfold a_deg in *. apply Z.leb_le. lia. }
  rewrite Ek. cbn [assert bind].
  unfold init_control at 1. cbn [nd_of nd_shape nd_get]. rewrite app_length, Ls. cbn [length]. destruct (Z.leb_spec 2 (Z.of_nat (length axes + 1))); [|lia].
  cbn [assert bind]. rewrite last_last, removelast_last. change (2 <=? 4) with true. change (4 <=? 4) with true. change (4 <? 4) with false. cbn [assert is_none bind].
  assert (Ed : forallb (fun a : axis N => 1 <=? a_deg a) (map read_axis axes) = true).
  { apply forallb_forall. intros k Hk. apply in_map_iff in Hk. destruct Hk as (A & <- & I). rewrite Forall_forall in HA. specialize (HA A I).
    unfold a_deg. cbn [read_axis a_size a_len]. rewrite (knot_list_length ty A HA). destruct HA as (? & ? & _). unfold a_deg in *. apply Z.leb_le. lia. }
  destruct D as [[npd f]|].
  - unfold init_fields. cbn [nd_of nd_shape nd_get]. rewrite shape_eqb_longer, app_length, Ls, last_last, removelast_last, shape_eqb_refl. cbn [length].
    destruct (Z.eqb_spec (Z.of_nat (length axes + 1) - 1) (Z.of_nat (length axes))); [|lia]. cbn [assert bind]. rewrite Ls, Z.eqb_refl. cbn [assert bind].
    rewrite zip_read by auto. rewrite Ed. cbn [assert bind]. eexists. split; [reflexivity|]. cbn [n_axes n_comp n_arr]. split; [reflexivity|]. split; [reflexivity|]. split.
    + intros idx c Hc. destruct (Z.ltb_spec c 4); [|lia]. rewrite last_last, removelast_last. reflexivity.
    + intros idx c Hc. destruct (Z.ltb_spec c 4); [lia|]. change (3 <? 4) with true. cbv iota. rewrite !last_last, !removelast_last. reflexivity.
  - unfold init_fields. cbn [bind]. rewrite Ls, Z.eqb_refl. cbn [assert bind]. rewrite zip_read by auto. rewrite Ed. cbn [assert bind].
    eexists. split; [reflexivity|]. cbn [n_axes n_comp n_arr]. split; [reflexivity|]. split; [reflexivity|]. split; [|exact I].
    intros idx c Hc. rewrite last_last, removelast_last. reflexivity.
Qed.

(** ** What is in the file *)
Definition ctl_part (nrb : nurbs N) (nsd : option Z) : option (Z * list N) :=
  match nsd with Some d => Some (d, flat_map (fun idx => map (n_arr nrb idx) (zseq (Z.to_nat d) 0 ++ [3])) (grid_order (n_shape nrb))) | None => None end.
Definition fld_part (nrb : nurbs N) (fields : bool) : option (Z * list N) :=
  if fields && (4 <? n_comp nrb) then Some (n_comp nrb - 4,
    flat_map (fun idx => map (fun c => ndiv N (n_arr nrb idx c) (n_arr nrb idx 3)) (zseq (Z.to_nat (n_comp nrb - 4)) 4)) (grid_order (n_shape nrb))) else None.
Lemma petiga_file_eq id1 id2 id3 nrb nsd fields : petiga_file ty id1 id2 id3 nrb nsd fields = file ty id1 id2 id3 (n_axes nrb) (ctl_part nrb nsd) (fld_part nrb fields).
Proof. unfold petiga_file, file, ctl_part, fld_part. destruct nsd, (fields && (4 <? n_comp nrb)); reflexivity. Qed.

Variable nrb : nurbs N.
Definition ctl_get (d : Z) (idx : list Z) (c : Z) : N := n_arr nrb idx (if c =? d then 3 else c).
Lemma ctl_values d : Forall (fun s => 0 < s) (n_shape nrb) -> 0 <= d -> flat_map (fun idx => map (n_arr nrb idx) (zseq (Z.to_nat d) 0 ++ [3])) (grid_order (n_shape nrb)) =
  flatten (d + 1 :: n_shape nrb) (fun j => ctl_get d (tl j) (hd 0 j)).
Proof.
  intros SS Hd. rewrite flatten_grid by (auto; lia). apply flat_map_ext. intros idx.
  replace (Z.to_nat (d + 1)) with (S (Z.to_nat d)) by lia. rewrite zseq_S, !map_app. f_equal.
  - apply map_ext_in. intros c Hc. apply in_zseq in Hc. unfold ctl_get. destruct (Z.eqb_spec c d); [lia|reflexivity].
  - cbn [map]. unfold ctl_get. destruct (Z.eqb_spec (0 + Z.of_nat (Z.to_nat d)) d); [reflexivity|lia].
Qed.
Definition fld_get (idx : list Z) (c : Z) : N := ndiv N (n_arr nrb idx (4 + c)) (n_arr nrb idx 3).
Lemma fld_values : Forall (fun s => 0 < s) (n_shape nrb) -> 4 <= n_comp nrb -> flat_map (fun idx => map (fun c => ndiv N (n_arr nrb idx c) (n_arr nrb idx 3)) (zseq (Z.to_nat (n_comp nrb - 4)) 4)) (grid_order (n_shape nrb)) =
  flatten (n_comp nrb - 4 :: n_shape nrb) (fun j => fld_get (tl j) (hd 0 j)).
Proof.
  intros SS Hd. rewrite flatten_grid by (auto; lia). apply flat_map_ext. intros idx.
  change 4 with (0 + 4) at 2. rewrite zseq_shift, map_map. apply map_ext. intros c. unfold fld_get. f_equal. f_equal. lia.
Qed.
Variable nsd : option Z.
Variable fields : bool.
Hypothesis St : storable ty nrb nsd fields.

Lemma st_axes : Forall (axis_ok ty) (n_axes nrb).
Proof. apply Forall_forall. intros A I. destruct St as [_ H _ _ _]. apply H. exact I. Qed.
Lemma st_shape : Forall (fun s => 0 < s) (n_shape nrb).
Proof. apply Forall_forall. intros s I. apply in_map_iff in I. destruct I as (A & <- & I). pose proof st_axes as H. rewrite Forall_forall in H. destruct (H A I). lia. Qed.
Lemma in_shape_cons k sh j : in_shape (k :: sh) j -> exists c idx, j = c :: idx /\ 0 <= c < k /\ in_shape sh idx.
Proof. intros H. inversion H; subst. eauto. Qed.
Lemma st_ctl : opt_ok ty (ctl_part nrb nsd) (Z.of_nat (length (n_axes nrb))) 3.
Proof.
  pose proof st_shape as SS. pose proof (st_control _ _ _ _ St) as H. pose proof (st_dim _ _ _ _ St). destruct nsd as [d|]; [|exact I]. cbn [ctl_part opt_ok]. destruct H as (H1 & H2 & H3).
  split; [lia|]. split; [apply fits_4; [apply Hty|lia]|]. rewrite ctl_values by (auto; lia). split.
  - rewrite flatten_length. rewrite Z2Nat.id; [exact H2|]. apply prod_nonneg. constructor; [lia|]. eapply Forall_impl; [|exact SS]. intros; cbn in *; lia.
  - apply flatten_in; [constructor; [lia|exact SS]|]. intros j Hj. apply in_shape_cons in Hj. destruct Hj as (c & idx & -> & Hc & I). cbn [hd tl].
    unfold ctl_get. apply H3; auto. destruct (Z.eqb_spec c d); lia.
Qed.
Lemma st_fld : opt_ok ty (fld_part nrb fields) 1 (n_comp nrb - 4).
Proof.
  pose proof st_shape as SS. pose proof (st_fields _ _ _ _ St) as SF. unfold fld_part. destruct fields eqn:Ef; [|exact I]. destruct (Z.ltb_spec 4 (n_comp nrb)); [|exact I]. cbn [andb opt_ok].
  destruct (SF eq_refl H) as (H1 & H2 & H3). split; [lia|]. split; [auto|]. rewrite fld_values by (auto; lia). split.
  - rewrite flatten_length. rewrite Z2Nat.id; [exact H2|]. apply prod_nonneg. constructor; [lia|]. eapply Forall_impl; [|exact SS]. intros; cbn in *; lia.
  - apply flatten_in; [constructor; [lia|exact SS]|]. intros j Hj. apply in_shape_cons in Hj. destruct Hj as (c & idx & -> & Hc & I). cbn [hd tl].
    unfold fld_get. apply H3; auto. lia.
Qed.
Lemma parses_object : parses (get_file ty) (petiga_file ty IGA_ID VEC_ID VEC_ID nrb nsd fields)
  (map axis_value (n_axes nrb), (ctl_part nrb nsd, fld_part nrb fields)).
Proof. rewrite petiga_file_eq. eapply parses_file; [auto|exact (st_dim _ _ _ _ St)|exact st_axes|exact st_ctl|exact st_fld]. Qed.

Lemma reshape_back k sh (g : list Z -> Z -> N) : Forall (fun s => 0 < s) sh -> 0 <= k ->
  exists f, reshape_f k sh (flatten (k :: sh) (fun j => g (tl j) (hd 0 j))) = Ok f /\
    forall idx c, in_shape sh idx -> 0 <= c < k -> f idx c = g idx c.
Proof.
  intros Hs Hk. unfold reshape_f. rewrite flatten_length. rewrite Z2Nat.id.
  - rewrite Z.eqb_refl. eexists. split; [reflexivity|]. intros idx c I Hc. cbv beta.
    rewrite (flatten_nth (k :: sh) (fun j => g (tl j) (hd 0 j)) (c :: idx)); [reflexivity|constructor; auto].
  - apply prod_nonneg. constructor; [lia|]. eapply Forall_impl; [|exact Hs]. intros; cbn in *; lia.
Qed.

Theorem petiga_back : exists nrb', petiga_read junk ty (petiga_file ty IGA_ID VEC_ID VEC_ID nrb nsd fields) = Ok nrb' /\ same_axes nrb nrb' /\
  n_comp nrb' = (if fields then n_comp nrb else 4) /\
  forall idx, in_shape (n_shape nrb) idx ->
    match nsd with
    | Some d => (forall c, 0 <= c < d \/ c = 3 -> n_arr nrb' idx c = n_arr nrb idx c) /\ (forall c, d <= c < 3 -> n_arr nrb' idx c = n0 N)
    | None => n_arr nrb' idx 3 = n1 N /\
        (forall a, (a < length (n_axes nrb))%nat -> exists x, greville junk nrb' (Z.of_nat a) = Ok x /\ n_arr nrb' idx (Z.of_nat a) = v_get x (nth a idx 0)) /\
        (forall c, Z.of_nat (length (n_axes nrb)) <= c < 3 -> n_arr nrb' idx c = n0 N)
    end /\
    forall c, 4 <= c < n_comp nrb' -> n_arr nrb' idx c = nmul N (ndiv N (n_arr nrb idx c) (n_arr nrb idx 3)) (n_arr nrb' idx 3).
Proof.
  pose proof (proj1 parses_object []) as E. rewrite app_nil_r in E. unfold petiga_read. rewrite E. cbn [bind].
  pose proof st_shape as SS. pose proof (st_control _ _ _ _ St) as SC. pose proof st_axes as HA. pose proof (st_dim _ _ _ _ St) as Hd. pose proof (st_comp _ _ _ _ St) as Hc.
  assert (Es : map fst (map axis_value (n_axes nrb)) = map a_size (n_axes nrb)) by (rewrite map_map; reflexivity).
  assert (Ek : map (fun a : Z * (Z * vec N) => snd (snd a)) (map axis_value (n_axes nrb)) = map (fun A => vec_of (knot_list A)) (n_axes nrb)) by (rewrite map_map; reflexivity).
  rewrite Es, Ek. change (map a_size (n_axes nrb)) with (n_shape nrb).
  (* the fields *)
  assert (HD : exists D : option (Z * (list Z -> Z -> N)), (match fld_part nrb fields with
       | Some (npd, l) => let* f := reshape_f npd (n_shape nrb) l in Ok (Some (nd_of (n_shape nrb) npd f))
       | None => Ok None end) = Ok (match D with Some (npd, f) => Some (nd_of (n_shape nrb) npd f) | None => None end) /\
       (match D with Some (npd, _) => 4 + npd | None => 4 end) = (if fields then n_comp nrb else 4) /\
       match D with Some (npd, f) => npd = n_comp nrb - 4 /\ forall idx c, in_shape (n_shape nrb) idx -> 0 <= c < n_comp nrb - 4 -> f idx c = fld_get idx c
       | None => True end).
  { unfold fld_part. destruct fields; [|exists None; repeat split]. destruct (Z.ltb_spec 4 (n_comp nrb)); cbn [andb].
    - rewrite fld_values by (auto; lia). destruct (reshape_back (n_comp nrb - 4) (n_shape nrb) fld_get SS) as (f & Ef & Hf); [lia|].
      rewrite Ef. exists (Some (n_comp nrb - 4, f)). split; [reflexivity|]. split; [lia|]. split; [reflexivity|exact Hf].
    - exists None. repeat split. lia. }
  destruct HD as (D & ED & HDc & HDf).
  (* the control points *)
  assert (HC : exists C : list Z -> Z -> N, (match ctl_part nrb nsd with
       | Some (nsd, l) => let* Cw := reshape_f (nsd + 1) (n_shape nrb) l in
            Ok (fun idx c => if c <? nsd then Cw idx c else if c =? 3 then Cw idx nsd else n0 N)
       | None => let* xs := mapM (fun a : Z * (Z * vec N) => py_Greville junk (fst (snd a)) (snd (snd a))) (map axis_value (n_axes nrb)) in Ok (default_control xs)
       end) = Ok C /\
       match nsd with
       | Some d => forall idx, in_shape (n_shape nrb) idx -> (forall c, 0 <= c < d \/ c = 3 -> C idx c = n_arr nrb idx c) /\ (forall c, d <= c < 3 -> C idx c = n0 N)
       | None => exists xs, mapM (fun a : Z * (Z * vec N) => py_Greville junk (fst (snd a)) (snd (snd a))) (map axis_value (n_axes nrb)) = Ok xs /\ C = default_control xs
       end).
  { unfold ctl_part. destruct nsd as [d|].
    - destruct SC as (SC & _ & _). rewrite ctl_values by (auto; lia). destruct (reshape_back (d + 1) (n_shape nrb) (ctl_get d) SS) as (f & Ef & Hf); [lia|].
      rewrite Ef. cbn [bind]. eexists. split; [reflexivity|]. intros idx I. split.
      + intros c [Hc'| ->]; cbv beta.
        * destruct (Z.ltb_spec c d); [|lia]. rewrite Hf by (auto; lia). unfold ctl_get. destruct (Z.eqb_spec c d); [lia|reflexivity].
        * destruct (Z.ltb_spec 3 d); [lia|]. rewrite Z.eqb_refl, Hf by (auto; lia). unfold ctl_get. rewrite Z.eqb_refl. reflexivity.
      + intros c Hc'. cbv beta. destruct (Z.ltb_spec c d); [lia|]. destruct (Z.eqb_spec c 3); [lia|reflexivity].
    - destruct (mapM_ok (fun a : Z * (Z * vec N) => py_Greville junk (fst (snd a)) (snd (snd a))) (fun _ _ => True) (map axis_value (n_axes nrb))) as (xs & Exs & _).
      + intros a Ia. apply in_map_iff in Ia. destruct Ia as (A & <- & IA). rewrite Forall_forall in HA. specialize (HA A IA). specialize (SC A IA).
        cbn [axis_value fst snd]. unfold py_Greville. cbn [vec_of v_len]. rewrite (knot_list_length ty A HA).
        destruct HA as (? & ? & _). destruct (Z.leb_spec 1 (a_deg A)); [|lia]. destruct (Z.leb_spec (2 * a_deg A + 1) (a_len A - 1)); [|lia]. cbn [check bind]. eauto.
      + rewrite Exs. cbn [bind]. eauto 6. }
  destruct HC as (C & EC & HCv). rewrite EC, ED. cbn [bind].
  destruct (init_read (n_axes nrb) C D Hd HA) as (nrb' & Ei & EA & En & EC4 & EF). change (map a_size (n_axes nrb)) with (n_shape nrb) in Ei.
  exists nrb'. split; [exact Ei|].
  assert (SA : same_axes nrb nrb').
  { unfold same_axes. rewrite EA. clear - HA. induction HA; [constructor|]. cbn [map]. constructor; auto. apply read_axis_same; auto. }
  split; [exact SA|]. split; [rewrite En; exact HDc|]. intros idx I. split.
  - destruct nsd as [d|].
    + destruct (HCv idx I) as [H1 H2]. destruct SC as (SC & _ & _). split.
      * intros c Hc'. rewrite EC4 by lia. auto.
      * intros c Hc'. rewrite EC4 by lia. auto.
    + destruct HCv as (xs & Exs & ->). rewrite EC4 by lia. split; [reflexivity|].
      assert (X : forall l ys, Forall (axis_ok ty) l -> mapM (fun a : Z * (Z * vec N) => py_Greville junk (fst (snd a)) (snd (snd a))) (map axis_value l) = Ok ys ->
                  length ys = length l /\ forall a, (a < length l)%nat -> exists x, nth_error ys a = Some x /\
                    let B := nth a (map read_axis l) axis0 in py_Greville junk (a_deg B) (mkVec (a_len B) (a_knots B)) = Ok x).
      { clear. intros l. induction l as [|A l IH]; intros ys HA E; cbn [map mapM] in E.
        - injection E as <-. split; [reflexivity|]. cbn. lia.
        - destruct (py_Greville junk (fst (snd (axis_value A))) (snd (snd (axis_value A)))) as [x|] eqn:Ex; [|discriminate]. cbn [bind] in E.
          destruct (mapM _ (map axis_value l)) as [zs|] eqn:Ez; [|discriminate]. cbn [bind] in E. injection E as <-.
          inversion HA; subst. destruct (IH zs H2 eq_refl) as [L1 L2]. split; [cbn; lia|]. intros a Ha. destruct a as [|a].
          + exists x. split; [reflexivity|]. cbn [map nth]. cbv zeta. rewrite <- Ex. cbn [axis_value fst snd read_axis a_len a_knots vec_of v_get].
            f_equal. unfold a_deg. cbn [read_axis a_size a_len]. rewrite (knot_list_length ty A H1). lia.
          + cbn in Ha. destruct (L2 a) as (y & Ey & Gy); [lia|]. exists y. split; auto. }
      destruct (X (n_axes nrb) xs HA Exs) as [L1 L2]. split.
      * intros a Ha. destruct (L2 a Ha) as (x & Ex & Gx). exists x. split.
        -- unfold greville. assert (Edim : n_dim nrb' = Z.of_nat (length (n_axes nrb))) by (unfold n_dim; rewrite EA, map_length; reflexivity).
           unfold py_axis. rewrite Edim. destruct (Z.leb_spec (- Z.of_nat (length (n_axes nrb))) (Z.of_nat a)); [|lia].
           destruct (Z.ltb_spec (Z.of_nat a) (Z.of_nat (length (n_axes nrb)))); [|lia]. cbn [andb bind].
           destruct (Z.ltb_spec (Z.of_nat a) 0); [lia|]. rewrite Nat2Z.id. unfold get_axis. rewrite EA. exact Gx.
        -- rewrite EC4 by lia. unfold default_control. destruct (Z.eqb_spec (Z.of_nat a) 3); [lia|]. rewrite Nat2Z.id, Ex. reflexivity.
      * intros c Hc'. rewrite EC4 by lia. unfold default_control. destruct (Z.eqb_spec c 3); [lia|].
        rewrite (proj2 (nth_error_None xs (Z.to_nat c))) by lia. reflexivity.
  - intros c Hc'. destruct D as [[npd f]|]; [|lia]. destruct HDf as [-> HDf]. rewrite EF by lia. rewrite HDf by (auto; lia). unfold fld_get. do 2 f_equal. f_equal. lia.
Qed.

(** Strict prefixes and wrong class ids. *)
Theorem petiga_prefix pre post : petiga_file ty IGA_ID VEC_ID VEC_ID nrb nsd fields = pre ++ post -> post <> [] -> exists e, petiga_read junk ty pre = Raise e.
Proof. intros E H. destruct (proj2 parses_object pre post E H) as [e Ee]. exists e. unfold petiga_read. rewrite Ee. reflexivity. Qed.
Theorem petiga_ids id1 id2 id3 rest : fits (t_int ty) id1 -> fits (t_int ty) id2 -> fits (t_int ty) id3 ->
  id1 <> IGA_ID \/ (nsd <> None /\ id2 <> VEC_ID) \/ (fields = true /\ 4 < n_comp nrb /\ id3 <> VEC_ID) ->
  exists e, petiga_read junk ty (petiga_file ty id1 id2 id3 nrb nsd fields ++ rest) = Raise e.
Proof.
  intros F1 F2 F3 W. rewrite petiga_file_eq.
  destruct (bad_file ty Hty (n_axes nrb) (ctl_part nrb nsd) (fld_part nrb fields) (n_comp nrb - 4) id1 id2 id3 (st_dim _ _ _ _ St) st_axes st_ctl st_fld F1 F2 F3) with (rest := rest) as [e Ee].
  - destruct W as [W|[[W W']|(W1 & W2 & W3)]]; [auto| |].
    + right; left. split; auto. destruct nsd; [discriminate|congruence].
    + right; right. split; auto. unfold fld_part. rewrite W1. destruct (Z.ltb_spec 4 (n_comp nrb)); [discriminate|lia].
  - exists e. unfold petiga_read. rewrite Ee. reflexivity.
Qed.
End Object.

(** ** What is written *)
Theorem petiga_written {N : Num} (ty : types N) nrb control fields nsd : Forall (fun A => 0 < a_size A) (n_axes nrb) -> 4 <= n_comp nrb ->
  let d := match nsd with Some d => d | None => Z.of_nat (length (n_axes nrb)) end in
  (control = true -> Z.of_nat (length (n_axes nrb)) <= d <= 3) ->
  petiga_write ty nrb control fields nsd = Ok (petiga_file ty IGA_ID VEC_ID VEC_ID nrb (if control then Some d else None) fields).
Proof.
  intros HA Hc d Hd. assert (HS : Forall (fun s => 0 < s) (n_shape nrb)).
  { apply Forall_forall. intros s I. apply in_map_iff in I. destruct I as (A & <- & I). rewrite Forall_forall in HA. apply HA; auto. }
  unfold petiga_write. change (match nsd with None => n_dim nrb | Some d => d end) with (match nsd with None => Z.of_nat (length (n_axes nrb)) | Some d => d end).
  replace (match nsd with None => Z.of_nat (length (n_axes nrb)) | Some d => d end) with d by (destruct nsd; reflexivity).
  assert (Ea : (if control then assert (n_dim nrb <=? d);;; assert (d <=? 3) else Ok tt) = Ok tt).
  { destruct control; auto. specialize (Hd eq_refl). unfold n_dim. destruct (Z.leb_spec (Z.of_nat (length (n_axes nrb))) d); [|lia]. destruct (Z.leb_spec d 3); [|lia]. reflexivity. }
  rewrite Ea. cbn [bind]. f_equal. unfold petiga_file.
  assert (EI : put_int ty = int_bytes (t_int ty)) by (unfold put_int; apply FunctionalExtensionality.functional_extensionality; intros; apply be_int).
  rewrite !EI. unfold n_dim, put_axis, put_array, put. rewrite !EI.
  assert (EV : forall k (f : list Z -> Z -> N), 0 <= k -> Z.of_nat (length (flat_map (fun idx => map (f idx) (zseq (Z.to_nat k) 0)) (grid_order (n_shape nrb)))) = prod (k :: n_shape nrb)).
  { intros k f Hk. rewrite <- flatten_grid by auto. rewrite flatten_length. apply Z2Nat.id. apply prod_nonneg. constructor; auto. eapply Forall_impl; [|exact HS]. intros; cbn in *; lia. }
  f_equal. f_equal.
  { f_equal. unfold n_fields. destruct control, fields; cbn [andb]; auto; destruct (Z.leb_spec (n_comp nrb) 4), (Z.ltb_spec 4 (n_comp nrb)); auto; lia. }
  f_equal. f_equal. f_equal.
  - destruct control; auto. specialize (Hd eq_refl). unfold section.
    assert (EC : flat_map (fun idx => map (n_arr nrb idx) (zseq (Z.to_nat d) 0 ++ [3])) (grid_order (n_shape nrb)) =
                 flat_map (fun idx => map (fun c => n_arr nrb idx (if c =? d then 3 else c)) (zseq (Z.to_nat (d + 1)) 0)) (grid_order (n_shape nrb))).
    { apply flat_map_ext. intros idx. replace (Z.to_nat (d + 1)) with (S (Z.to_nat d)) by lia. rewrite zseq_S, !map_app. f_equal.
      - apply map_ext_in. intros c Hc'. apply in_zseq in Hc'. destruct (Z.eqb_spec c d); [lia|reflexivity].
      - cbn [map]. destruct (Z.eqb_spec (0 + Z.of_nat (Z.to_nat d)) d); [reflexivity|lia]. }
    rewrite EC, (EV (d + 1) (fun idx c => n_arr nrb idx (if c =? d then 3 else c))) by lia.
    rewrite (flatten_grid (d + 1) (n_shape nrb) (fun idx c => n_arr nrb idx (if c =? d then 3 else c))) by (auto; lia). reflexivity.
  - unfold n_fields. destruct fields; [|reflexivity]. destruct (Z.leb_spec (n_comp nrb) 4), (Z.ltb_spec 4 (n_comp nrb)); try lia; [reflexivity|].
    cbn [andb]. unfold section.
    assert (EF : flat_map (fun idx => map (fun c => ndiv N (n_arr nrb idx c) (n_arr nrb idx 3)) (zseq (Z.to_nat (n_comp nrb - 4)) 4)) (grid_order (n_shape nrb)) =
                 flat_map (fun idx => map (fun c => ndiv N (n_arr nrb idx (4 + c)) (n_arr nrb idx 3)) (zseq (Z.to_nat (n_comp nrb - 4)) 0)) (grid_order (n_shape nrb))).
    { apply flat_map_ext. intros idx. change 4 with (0 + 4) at 2. rewrite zseq_shift, map_map. apply map_ext. intros c. f_equal. f_equal. lia. }
    rewrite EF, (EV (n_comp nrb - 4) (fun idx c => ndiv N (n_arr nrb idx (4 + c)) (n_arr nrb idx 3))) by lia.
    rewrite (flatten_grid (n_comp nrb - 4) (n_shape nrb) (fun idx c => ndiv N (n_arr nrb idx (4 + c)) (n_arr nrb idx 3))) by (auto; lia). reflexivity.
Qed.
