(** C94: knot insertion in IEEE double precision.  Vocabulary: SpecDouble.v ([dval], [finite], [b2]), SpecRound.v
    ([mild_axis], [mild_arg], [mild_comp], [real_pt], [effort]), SpecRound2.v ([new_knot], [times_in], [within],
    [weights_in], [real_hom]). *)
From Coq Require Import ZArith Reals List Bool SpecFloat Lia Lra.
From Verif Require Import Num Loop Spec ModelBspline ModelBSp ModelNurbs ModelFloat SpecNurbs SpecDouble SpecRound SpecRound2 ProofRound ProofRound2 ProofRound3 ProofRound4 ProofRound8 ProofRound14 ExTac PropDouble PropRound.
Import ListNotations.
Local Open Scope R_scope.

(** ** Insertion is not refused *)
Theorem C94_accepts : forall (dj : Z -> Dn) (nrb : nurbs Dn) ax a (u : Dn) times, Forall mild_axis (n_axes nrb) -> py_axis (n_dim nrb) ax = Ok a ->
  let A := get_axis nrb a in new_knot A u -> (match times with Some t => 0 <= t /\ times_in A u + t <= a_deg A | None => True end)%Z ->
  exists nrb', insert (N:=Dn) dj nrb ax u times = Ok nrb'.
Proof. exact ins_accepts. Qed.
Print Assumptions C94_accepts.

(** ** The new axis has the old knots and u, bit for bit *)
Theorem C94_knots : forall (dj : Z -> Dn) (nrb nrb' : nurbs Dn) ax a (u : Dn) times, (length (n_axes nrb) <= 3)%nat -> (4 <= n_comp nrb)%Z ->
  Forall mild_axis (n_axes nrb) -> py_axis (n_dim nrb) ax = Ok a -> let A := get_axis nrb a in new_knot A u ->
  insert (N:=Dn) dj nrb ax u times = Ok nrb' ->
  let t := match times with Some t => t | None => (a_deg A - Z.min (times_in A u) (a_deg A))%Z end in
  Forall mild_axis (n_axes nrb') /\ exists V, n_axes nrb' = lset a (mkAxis (N:=Dn) (a_size A + t) (a_len A + t) V) (n_axes nrb) /\
    (forall i, (0 <= i < a_len A + t)%Z -> V i = u \/ exists j, (0 <= j < a_len A)%Z /\ V i = a_knots A j) /\
    nondecreasing (fun i => dval (V i)) 0 (a_len A + t - 1) /\
    forall v, multiplicity (fun i => dval (V i)) 0 (a_len A + t - 1) v = (multiplicity (fun i => dval (a_knots A i)) 0 (a_len A - 1) v + if Req_EM_T v (dval u) then t else 0)%Z.
Proof. exact (fun dj nrb nrb' ax a u times L3 C4 HA Ea Hu => ins_knots dj nrb nrb' ax a u times L3 C4 HA Ea Hu). Qed.
Print Assumptions C94_knots.

(** ** The spline: each homogeneous component moves by at most t(2^-48 M + 2^-1073) *)
Theorem C94_spline : forall (dj : Z -> Dn) (nrb nrb' : nurbs Dn) ax a (u : Dn) times, (length (n_axes nrb) <= 3)%nat -> (4 <= n_comp nrb)%Z ->
  Forall mild_axis (n_axes nrb) -> py_axis (n_dim nrb) ax = Ok a -> let A := get_axis nrb a in new_knot A u ->
  insert (N:=Dn) dj nrb ax u times = Ok nrb' ->
  forall c M, M <= b2 500 -> within nrb c M -> forall us, in_box (map real_ax (n_axes nrb)) us ->
    Rabs (real_hom nrb' c us - real_hom nrb c us) <=
    IZR (match times with Some t => t | None => (a_deg A - Z.min (times_in A u) (a_deg A))%Z end) * (b2 (-48) * M + b2 (-1073)).
Proof. exact ins_hom. Qed.
Print Assumptions C94_spline.

(** ** The points: coordinate or field c, within M over the control points, moves by at most p 2^-46 (w1/w0) M + 2^-960 *)
Theorem C94_points : forall (dj : Z -> Dn) (nrb nrb' : nurbs Dn) ax a (u : Dn) times, (length (n_axes nrb) <= 3)%nat -> (4 <= n_comp nrb)%Z ->
  Forall mild_axis (n_axes nrb) -> py_axis (n_dim nrb) ax = Ok a -> let A := get_axis nrb a in new_knot A u ->
  insert (N:=Dn) dj nrb ax u times = Ok nrb' -> forall w0 w1, weights_in nrb w0 w1 ->
  forall c M, 0 <= M <= b2 400 -> mild_comp nrb c M -> forall us, in_box (map real_ax (n_axes nrb)) us ->
    Rabs (real_pt nrb' c us - real_pt nrb c us) <= IZR (a_deg A) * b2 (-46) * (w1 / w0) * M + b2 (-960).
Proof. exact ins_pt. Qed.
Print Assumptions C94_points.

(** ** The computed values before and after *)
Theorem C94_values : forall (dj : Z -> Dn) (nrb nrb' : nurbs Dn) ax a (u : Dn) times, (length (n_axes nrb) <= 3)%nat -> (4 <= n_comp nrb)%Z ->
  Forall mild_axis (n_axes nrb) -> py_axis (n_dim nrb) ax = Ok a -> let A := get_axis nrb a in new_knot A u ->
  insert (N:=Dn) dj nrb ax u times = Ok nrb' -> forall w0 w1, weights_in nrb w0 w1 ->
  forall junk junk2 junk3 junkS xs (fields : bool), Forall2 mild_arg (n_axes nrb) xs ->
  exists C F C' F', call (N:=Dn) junk junk2 junk3 junkS nrb (map Some xs) (if fields then FYes else FNo) = Ok (C, F) /\
    call (N:=Dn) junk junk2 junk3 junkS nrb' (map Some xs) (if fields then FYes else FNo) = Ok (C', F') /\
    forall idx c M, Forall2 (fun x i => (0 <= i < v_len x)%Z) xs idx -> 0 <= M <= b2 400 -> mild_comp nrb c M ->
      finite (C idx c) /\ finite (C' idx c) /\
      Rabs (dval (C' idx c) - dval (C idx c)) <= (b2 (-47) * effort (n_axes nrb) + b2 (-46) * IZR (a_deg A) * (w1 / w0)) * M + b2 (-898).
Proof. exact ins_values. Qed.
Print Assumptions C94_values.

(** The curve of C85 (weights 1, 0.5, 1), with the knot 0.3 put in once or twice, evaluated at 0.1 and 0.3. *)
Example C94_example : py_axis (n_dim arc) (-1) = Ok 0%nat /\ (length (n_axes arc) <= 3)%nat /\ (4 <= n_comp arc)%Z /\ Forall mild_axis (n_axes arc) /\ Forall2 mild_arg (n_axes arc) [arc_at] /\
  new_knot (get_axis arc 0) (dec 3 1) /\ times_in (get_axis arc 0) (dec 3 1) = 0%Z /\ a_deg (get_axis arc 0) = 2%Z /\
  weights_in arc (/ 2) 1 /\ (forall c, (0 <= c < 3)%Z -> mild_comp arc c 1 /\ within arc c 1) /\ in_box (map real_ax (n_axes arc)) [dval (dec 1 1)] /\
  is_ok (insert (N:=Dn) dj arc (-1) (dec 3 1) (Some 1%Z)) = true /\ is_ok (insert (N:=Dn) dj arc (-1) (dec 3 1) None) = true.
Proof.
  destruct C85_example as (H1 & H2 & H3 & H4 & H5 & _).
  assert (K : forall i, (0 <= i < 6)%Z -> dval (dl (ints [0; 0; 0; 1; 1; 1]%Z) i) = if (i <? 3)%Z then 0 else 1).
  { intros i Hi. rewrite arc_knot by auto. destruct (i <? 3)%Z; [apply dv0|apply dv1]. }
  assert (NET : forall idx, in_net (map real_ax (n_axes arc)) idx -> exists i, idx = [i] /\ (0 <= i <= 2)%Z).
  { intros idx I. inversion I as [|? i ? l Hi Hl]; subst. inversion Hl; subst. exists i. auto. }
  assert (HALF : dval (dec 5 1) = / 2).
  { replace (dec 5 1) with (S754_finite false 4503599627370496 (-53)) by (vm_compute; reflexivity). cbn [dval]. change (b2 (-53)) with uu. rewrite uu_val. lra. }
  assert (QU : dval (dec 125 3) = / 8).
  { replace (dec 125 3) with (S754_finite false 4503599627370496 (-55)) by (vm_compute; reflexivity). cbn [dval]. replace (b2 (-55)) with (uu / 4) by (rewrite uu_val; unfold b2; simpl; lra). rewrite uu_val. lra. }
  assert (U3 : / 8 <= dval (dec 3 1) <= / 2) by (rewrite <- HALF, <- QU; split; apply le_by; try fin; vm_compute; reflexivity).
  assert (WT : forall i, (0 <= i <= 2)%Z -> dval (n_arr arc [i] 3%Z) = if (i =? 1)%Z then / 2 else 1).
  { intros i Hi. enumz i 0%Z 2%Z; [exact dval_one|exact HALF|exact dval_one]. }
  assert (WI : weights_in arc (/ 2) 1).
  { split; [replace (/ 2) with (b2 (-1)) by (unfold b2; simpl; lra); apply b2_le; lia|]. split; [rewrite <- b2_0; apply b2_le; lia|]. split; [unfold b2; simpl; lra|].
    intros idx I. destruct (NET idx I) as (i & -> & Hi). split; [apply H4; exact I|]. rewrite WT by auto. destruct (i =? 1)%Z; lra. }
  split; [reflexivity|]. split; [exact H1|]. split; [cbn; lia|]. split; [exact H2|]. split; [exact H3|]. split.
  { split; [fin|]. change (a_deg (get_axis arc 0)) with 2%Z. change (a_size (get_axis arc 0)) with 3%Z. change (a_len (get_axis arc 0) - 1)%Z with 5%Z.
    change (a_knots (get_axis arc 0)) with (dl (ints [0; 0; 0; 1; 1; 1]%Z)). rewrite !K by lia. cbn [Z.ltb Z.compare Pos.compare Pos.compare_cont].
    split; [lra|]. intros i Hi. right. rewrite K by lia. destruct (i <? 3)%Z; [rewrite Rabs_left by lra|rewrite Rabs_right by lra]; lra. }
  split.
  { unfold times_in. change (a_len (get_axis arc 0) - 1)%Z with 5%Z. change (a_knots (get_axis arc 0)) with (dl (ints [0; 0; 0; 1; 1; 1]%Z)).
    apply ProofSpan.multiplicity_none. intros i Hi. rewrite K by lia. destruct (i <? 3)%Z; lra. }
  split; [reflexivity|]. split; [exact WI|]. split.
  { intros c Hc. split; [apply H5; exact Hc|]. intros idx I. destruct (H5 c Hc idx I) as [F B]. split; [exact F|]. destruct WI as (_ & _ & _ & WN). destruct (WN idx I). lra. }
  split.
  { constructor; [|constructor]. inversion H3 as [|? ? ? ? [_ HD] _]; subst. apply (HD 0%Z). cbn. lia. }
  split; vm_compute; reflexivity.
Qed.
