(** Knot removal (C22-C24, C74, C75).  Vocabulary: [same_data x y]: the same shape, knots,
    number of components and control array; [reduced n p t U u V]: V is sorted and is U without
    t copies of u; [same_results]: the same points and field values when called; [hom nrb c us]:
    homogeneous component c at us (SpecNurbs.v sums), [pt] the quotient by the weight. *)
From Coq Require Import ZArith Reals QArith List Lia Lra Bool.
From Verif Require Import Num Loop ModelBspline ModelBSp ModelNurbs ModelRemove Spec SumZ ProofSpan ProofInsert ExTac
  SpecNurbs ProofNet ProofCall ProofNurbs ProofMethods ProofRemove3 ProofRemove4 PropNurbs PropRefuted.
Import ListNotations.
Local Open Scope R_scope.

(** ** C22: removal undoes insertion. *)
(** The kernel: V and A hold the knots and control points made by inserting r copies; any number
    of columns, any tolerance >= 0. *)
Theorem C22_kernel : forall d n p U P u r num TOL junk junk2 V A, wf_knots n p U -> (1 <= p)%Z -> U p < u < U (n + 1)%Z ->
  separated U 0 (n + p + 1) u -> (multiplicity U 0 (n + p + 1) u + r <= p)%Z -> (1 <= num <= r)%Z -> 0 <= TOL ->
  (forall i, (0 <= i <= n + p + 1 + r)%Z -> V i = fst (bsp_InsertKnot (N:=Rn) n p U (fun _ => 0) u r junk) i) ->
  (forall i c, (0 <= i <= n + r)%Z -> A i c = snd (bsp_InsertKnot (N:=Rn) n p U (fun i => P i c) u r junk) i) ->
  let res := bsp_RemoveKnot (N:=Rn) d (n + r) p V A u num TOL junk2 in
  snd res = num /\
  (forall i, (0 <= i <= n + p + 1 + (r - num))%Z -> fst (fst res) i = fst (bsp_InsertKnot (N:=Rn) n p U (fun _ => 0) u (r - num) junk) i) /\
  (forall i c, (0 <= i <= n + (r - num))%Z -> snd (fst res) i c = snd (bsp_InsertKnot (N:=Rn) n p U (fun i => P i c) u (r - num) junk) i).
Proof. exact bsp_Remove_Insert. Qed.
Print Assumptions C22_kernel.

(** The methods: removing num of r inserted copies is inserting r - num copies, and removing all
    of them gives the original object. *)
Theorem C22_remove_undoes_insert : forall nrb ax a u r num dev junk junk2 nrb1, wf_nurbs nrb -> py_axis (n_dim nrb) ax = Ok a ->
  let A := get_axis nrb a in let n := (a_size A - 1)%Z in let p := a_deg A in let U := a_knots A in
  separated U 0 (n + p + 1) u -> U p < u < U (n + 1)%Z ->
  insert (N:=Rn) junk nrb ax u (Some r) = Ok nrb1 -> (0 <= num <= r)%Z -> 0 <= dev ->
  (forall idx, in_net (spec_axes nrb) idx -> 0 <= n_arr nrb idx (n_comp nrb - 1)%Z) ->
  exists nrb2 nrb3, remove (N:=Rn) sqrt junk2 nrb1 ax u (Some num) dev = Ok nrb2 /\
    insert (N:=Rn) junk nrb ax u (Some (r - num)%Z) = Ok nrb3 /\ same_data nrb3 nrb2.
Proof. exact remove_insert. Qed.
Print Assumptions C22_remove_undoes_insert.
Theorem C22_remove_all : forall nrb ax a u r dev junk junk2 nrb1, wf_nurbs nrb -> py_axis (n_dim nrb) ax = Ok a ->
  let A := get_axis nrb a in let n := (a_size A - 1)%Z in let p := a_deg A in let U := a_knots A in
  separated U 0 (n + p + 1) u -> U p < u < U (n + 1)%Z ->
  insert (N:=Rn) junk nrb ax u (Some r) = Ok nrb1 -> 0 <= dev ->
  (forall idx, in_net (spec_axes nrb) idx -> 0 <= n_arr nrb idx (n_comp nrb - 1)%Z) ->
  exists nrb2, remove (N:=Rn) sqrt junk2 nrb1 ax u (Some r) dev = Ok nrb2 /\ same_data nrb nrb2.
Proof. exact remove_insert_all. Qed.
Print Assumptions C22_remove_all.
(** exS: a rational surface with one field (all components positive); two copies of 1/2. *)
Example C22_example : wf_nurbs exS /\ py_axis (n_dim exS) (-2) = Ok 0%nat /\ separated exU 0 6 (1 / 2) /\ exU 2%Z < 1 / 2 < exU 4%Z /\
  (forall idx, in_net (spec_axes exS) idx -> 0 <= n_arr exS idx (n_comp exS - 1)%Z) /\
  (forall junk, exists nrb1, insert (N:=Rn) junk exS (-2) (1 / 2) (Some 2%Z) = Ok nrb1).
Proof.
  split; [exact exS_wf|]. split; [reflexivity|]. split; [apply exU_sep; auto|]. split; [unfold exU; split; arr_lra|]. split; [|apply C11_C12_example].
  intros idx H. destruct (exS_idx idx H) as (a & b & -> & Ha & Hb). unfold exS. cbn [n_arr n_comp nth]. apply IZR_le. nia.
Qed.

(** ** C23: bookkeeping of the kernel and of the method. *)
Theorem C23_kernel : forall d n p U P u r TOL junk2, wf_knots n p U -> (1 <= p)%Z -> U p < u < U (n + 1)%Z ->
  separated U 0 (n + p + 1) u -> (multiplicity U 0 (n + p + 1) u <= p + 1)%Z -> (0 <= r <= multiplicity U 0 (n + p + 1) u)%Z ->
  exists V Q t, bsp_RemoveKnot (N:=Rn) d n p U P u r TOL junk2 = (V, Q, t) /\ (0 <= t <= r)%Z /\
    (t = 0%Z -> V = U /\ Q = P) /\ ((0 < t)%Z -> 0 <= TOL) /\
    wf_knots (n - t) p V /\ V p = U p /\ V (n - t + 1)%Z = U (n + 1)%Z /\
    (forall v, multiplicity V 0 (n - t + p + 1) v = (multiplicity U 0 (n + p + 1) v - (if Req_EM_T v u then t else 0))%Z) /\
    forall x c, in_domain n p U x -> (1 <= c <= d)%Z ->
      Rabs (curve (n - t) p V (fun i => Q i c) x - curve n p U (fun i => P i c) x) <= IZR t * TOL.
Proof. exact bsp_RemoveKnot_gen. Qed.
Print Assumptions C23_kernel.
Example C23_example_kernel : wf_knots 3 2 exU /\ exU 2%Z < 1 < exU 4%Z /\ separated exU 0 6 1 /\ multiplicity exU 0 6 1 = 1%Z.
Proof. split; [exact exU_wf|]. split; [unfold exU; split; arr_lra|]. split; [apply exU_sep; auto|multz]. Qed.

Theorem C23_remove_returns : forall nrb ax a u times dev junk2, wf_nurbs nrb -> py_axis (n_dim nrb) ax = Ok a ->
  let A := get_axis nrb a in let n := (a_size A - 1)%Z in let p := a_deg A in let U := a_knots A in
  in_domain n p U u -> match times with Some t => (0 <= t)%Z | None => True end ->
  exists nrb', remove (N:=Rn) sqrt junk2 nrb ax u times dev = Ok nrb'.
Proof. exact remove_ok. Qed.
Print Assumptions C23_remove_returns.
Theorem C23_remove_bookkeeping : forall nrb ax a u times dev junk2 nrb', wf_nurbs nrb -> py_axis (n_dim nrb) ax = Ok a ->
  let A := get_axis nrb a in let n := (a_size A - 1)%Z in let p := a_deg A in let U := a_knots A in
  let mu := multiplicity U 0 (n + p + 1) u in
  separated U 0 (n + p + 1) u -> (mu <= p + 1)%Z ->
  remove (N:=Rn) sqrt junk2 nrb ax u times dev = Ok nrb' ->
  in_domain n p U u /\
  exists t V, (0 <= t <= Z.min mu p)%Z /\ (forall k, times = Some k -> (t <= k)%Z) /\ ((0 < t)%Z -> U p < u < U (n + 1)%Z) /\
    wf_nurbs nrb' /\ n_comp nrb' = n_comp nrb /\ Forall2 same_dom (spec_axes nrb) (spec_axes nrb') /\
    n_axes nrb' = lset a (mkAxis (a_size A - t) (a_len A - t) V) (n_axes nrb) /\ reduced n p t U u V /\
    (t = 0%Z -> same_data nrb nrb').
Proof. exact remove_bookkeeping. Qed.
Print Assumptions C23_remove_bookkeeping.
Example C23_example : wf_nurbs exS /\ py_axis (n_dim exS) 0 = Ok 0%nat /\ separated exU 0 6 1 /\ multiplicity exU 0 6 1 = 1%Z /\
  forall dev junk2, exists nrb', remove (N:=Rn) sqrt junk2 exS 0 1 (Some 1%Z) dev = Ok nrb'.
Proof.
  split; [exact exS_wf|]. split; [reflexivity|]. split; [apply exU_sep; auto|]. split; [multz|].
  intros dev junk2. apply (remove_ok exS 0 0%nat 1 (Some 1%Z) dev junk2 exS_wf eq_refl); [|lia].
  unfold in_domain, exS, get_axis, a_deg. cbn. unfold exU. split; arr_lra.
Qed.

(** ** C24 is false of the code.  If the last component (the last field) is negative everywhere,
    remove with a positive deviation never removes anything. *)
Theorem C24_negative_field : forall nrb ax a u times dev junk2 nrb', wf_nurbs nrb -> py_axis (n_dim nrb) ax = Ok a ->
  let A := get_axis nrb a in let n := (a_size A - 1)%Z in let p := a_deg A in let U := a_knots A in
  separated U 0 (n + p + 1) u -> (multiplicity U 0 (n + p + 1) u <= p + 1)%Z -> 0 < dev ->
  (forall idx, in_net (spec_axes nrb) idx -> n_arr nrb idx (n_comp nrb - 1)%Z < 0) ->
  remove (N:=Rn) sqrt junk2 nrb ax u times dev = Ok nrb' -> same_data nrb nrb'.
Proof. exact remove_negative. Qed.
Print Assumptions C24_negative_field.
(** A curve with one field, equal to -1. *)
Definition exNeg : nurbs Rn := mkNurbs [mkAxis (N:=Rn) 4 7 exU] 5 (fun idx c => if (c =? 4)%Z then -1 else 1).
Example C24_example_negative : wf_nurbs exNeg /\ py_axis (n_dim exNeg) 0 = Ok 0%nat /\ separated exU 0 6 1 /\ (multiplicity exU 0 6 1 <= 3)%Z /\
  (forall idx, in_net (spec_axes exNeg) idx -> n_arr exNeg idx (n_comp exNeg - 1)%Z < 0) /\
  forall junk2, exists nrb', remove (N:=Rn) sqrt junk2 exNeg 0 1 (Some 1%Z) (1 / 1000000000) = Ok nrb'.
Proof.
  assert (W : wf_nurbs exNeg).
  { split; [simpl; lia|]. split; [|simpl; lia]. constructor; [|constructor]. split; simpl; try (unfold a_deg; simpl; lia). exact exU_wf. }
  split; [exact W|]. split; [reflexivity|]. split; [apply exU_sep; auto|]. split; [replace (multiplicity exU 0 6 1) with 1%Z by (symmetry; multz); lia|].
  split; [intros idx _; simpl; lra|].
  intros junk2. apply (remove_ok exNeg 0 0%nat 1 (Some 1%Z) _ junk2 W eq_refl); [|lia].
  unfold in_domain, exNeg, get_axis, a_deg. cbn. unfold exU. split; arr_lra.
Qed.

(** Square root on rational squares, for the witnesses below (all norms there are rational). *)
Definition Qsqrt (q : Q) : Q := let r := Qred q in (Z.sqrt (Qnum r) # Z.to_pos (Z.sqrt (Zpos (Qden r)))).
(** Curve with x-coordinates P, weights W (homogeneous x is P*W) and the fields F. *)
Definition fcrv (n : Z) (U P W : list Q) (F : list (list Q)) : nurbs Qn :=
  mkNurbs (N:=Qn) [mkAxis (N:=Qn) n (Z.of_nat (length U)) (ql U)] (4 + Z.of_nat (length F))
   (fun idx c => let i := nth 0%nat idx 0%Z in
     Qred (if (c =? 0)%Z then ql P i * ql W i else if (c =? 3)%Z then ql W i else if (c <? 4)%Z then 0 else ql (nth (Z.to_nat (c - 4)) F []) i)%Q).
Definition weights_pos (n : Z) (W : list Q) : bool := forallb (fun i => negb (Qle_bool (ql W i) 0)) (zseq (Z.to_nat n) 0).
(** The object a call returned, to name it in the witnesses. *)
Definition got (r : res (nurbs Qn)) : nurbs Qn := match r with Ok x => x | Raise _ => crv 0 [] [] end.
Definition okQ (r : res (nurbs Qn)) : bool := match r with Ok _ => true | Raise _ => false end.
Lemma got_ok r : okQ r = true -> r = Ok (got r).
Proof. destruct r; [reflexivity|discriminate]. Qed.
Definition default_deviation : Q := (1 # 1000000000)%Q.

(** An inserted knot is not removed again when the field is -1: 4 points become 5 and stay 5. *)
Theorem C24_not_restored_refuted : exists nrb nrb1 nrb2,
  wfQ nrb = true /\ n_comp nrb = 5%Z /\ insert (N:=Qn) zj nrb 0 (1 # 2)%Q (Some 1%Z) = Ok nrb1 /\
  remove (N:=Qn) Qsqrt (fun _ _ => 0%Q) nrb1 0 (1 # 2)%Q (Some 1%Z) default_deviation = Ok nrb2 /\
  n_shape nrb = [4]%Z /\ n_shape nrb1 = [5]%Z /\ n_shape nrb2 = [5]%Z.
Proof.
  set (x := fcrv 4 [0;0;0;1;2;2;2]%Q [0;0;0;0]%Q [1;1;1;1]%Q [[-1;-1;-1;-1]%Q]).
  set (y := got (insert (N:=Qn) zj x 0 (1 # 2)%Q (Some 1%Z))).
  exists x, y, (got (remove (N:=Qn) Qsqrt (fun _ _ => 0%Q) y 0 (1 # 2)%Q (Some 1%Z) default_deviation)).
  split; [|split; [|split; [apply got_ok|split; [apply got_ok|split; [|split]]]]]; vm_compute; reflexivity.
Qed.
Print Assumptions C24_not_restored_refuted.
(** A knot that cannot be removed is removed when the field is large: the point at 1/2 moves from
    3/4 to 0 with the default deviation. *)
Theorem C24_wrongly_removed_refuted : exists nrb nrb1,
  wfQ nrb = true /\ n_comp nrb = 5%Z /\
  remove (N:=Qn) Qsqrt (fun _ _ => 0%Q) nrb 0 (1 # 2)%Q (Some 1%Z) default_deviation = Ok nrb1 /\
  n_shape nrb = [3]%Z /\ n_shape nrb1 = [2]%Z /\
  value nrb [(1 # 2)%Q] 0 = Some (3 # 4)%Q /\ value nrb1 [(1 # 2)%Q] 0 = Some 0%Q.
Proof.
  set (x := fcrv 3 [0;0;1#2;1;1]%Q [0;3#4;0]%Q [1;1;1]%Q [[10000000000;10000000000;10000000000]%Q]).
  exists x, (got (remove (N:=Qn) Qsqrt (fun _ _ => 0%Q) x 0 (1 # 2)%Q (Some 1%Z) default_deviation)).
  split; [|split; [|split; [apply got_ok|split; [|split; [|split]]]]]; vm_compute; reflexivity.
Qed.
Print Assumptions C24_wrongly_removed_refuted.

(** ** C74: how far removal moves the object: by no more than the deviation times the last component,
    divided by one plus the absolute value of any other homogeneous component. *)
Theorem C74_remove_bound : forall nrb ax a u times dev junk2 nrb' M idx0 c0, wf_nurbs nrb -> py_axis (n_dim nrb) ax = Ok a ->
  let A := get_axis nrb a in let n := (a_size A - 1)%Z in let p := a_deg A in let U := a_knots A in
  let mu := multiplicity U 0 (n + p + 1) u in
  separated U 0 (n + p + 1) u -> (mu <= p + 1)%Z -> 0 <= dev ->
  (forall idx, in_net (spec_axes nrb) idx -> n_arr nrb idx (n_comp nrb - 1)%Z <= M) ->
  in_net (spec_axes nrb) idx0 -> (0 <= c0 < n_comp nrb - 1)%Z ->
  remove (N:=Rn) sqrt junk2 nrb ax u times dev = Ok nrb' ->
  exists t, (0 <= t <= Z.min mu p)%Z /\ (forall k, times = Some k -> (t <= k)%Z) /\ n_shape nrb' = lset a (a_size A - t)%Z (n_shape nrb) /\
    forall us c, in_box (spec_axes nrb) us -> (0 <= c < n_comp nrb)%Z ->
      Rabs (hom nrb' c us - hom nrb c us) <= IZR t * (dev * M / (1 + Rabs (n_arr nrb idx0 c0))) /\
      (hom nrb 3 us <> 0 -> hom nrb' 3 us <> 0 ->
       Rabs (pt nrb' c us - pt nrb c us) * Rabs (hom nrb' 3 us) <= IZR t * (dev * M / (1 + Rabs (n_arr nrb idx0 c0))) * (1 + Rabs (pt nrb c us))).
Proof. exact remove_bound. Qed.
Print Assumptions C74_remove_bound.
Theorem C74_deviation_zero : forall nrb ax a u times junk2 nrb', wf_nurbs nrb -> py_axis (n_dim nrb) ax = Ok a ->
  let A := get_axis nrb a in let n := (a_size A - 1)%Z in let p := a_deg A in let U := a_knots A in
  separated U 0 (n + p + 1) u -> (multiplicity U 0 (n + p + 1) u <= p + 1)%Z ->
  remove (N:=Rn) sqrt junk2 nrb ax u times 0 = Ok nrb' -> wf_nurbs nrb' /\ same_results nrb nrb'.
Proof. exact remove_exact. Qed.
Print Assumptions C74_deviation_zero.
Example C74_example : wf_nurbs exS /\ py_axis (n_dim exS) 0 = Ok 0%nat /\ separated exU 0 6 1 /\ (multiplicity exU 0 6 1 <= 3)%Z /\
  (forall idx, in_net (spec_axes exS) idx -> n_arr exS idx (n_comp exS - 1)%Z <= 27) /\ in_net (spec_axes exS) [3; 4]%Z /\ n_arr exS [3; 4]%Z 3%Z = 26 /\
  forall dev junk2, exists nrb', remove (N:=Rn) sqrt junk2 exS 0 1 (Some 1%Z) dev = Ok nrb'.
Proof.
  destruct C23_example as (H1 & H2 & H3 & H4 & H5). split; [exact H1|]. split; [exact H2|]. split; [exact H3|]. split; [lia|]. split; [|split; [repeat constructor; cbn; lia|split; [reflexivity|exact H5]]].
  intros idx H. destruct (exS_idx idx H) as (a & b & -> & Ha & Hb). unfold exS. cbn [n_arr n_comp nth]. apply IZR_le. nia.
Qed.

(** ** C75 is false of the code: with deviation 1/1000 and no fields, the point at 1/2 moves by
    0.4, because the tolerance is scaled by the norm of the homogeneous coordinates (1 here)
    instead of the points (1000 here). *)
Theorem C75_deviation_refuted : exists nrb nrb1 x x1,
  wfQ nrb = true /\ n_comp nrb = 4%Z /\
  remove (N:=Qn) Qsqrt (fun _ _ => 0%Q) nrb 0 (1 # 2)%Q (Some 1%Z) (1 # 1000)%Q = Ok nrb1 /\ n_shape nrb1 = [2]%Z /\
  value nrb [(1 # 2)%Q] 0 = Some x /\ value nrb1 [(1 # 2)%Q] 0 = Some x1 /\ (x + (1 # 4) < x1)%Q.
Proof.
  set (x := mkNurbs (N:=Qn) [mkAxis (N:=Qn) 3 5 (ql [0;0;1#2;1;1]%Q)] 4
    (fun idx c => if (c =? 0)%Z then 1%Q else if (c =? 3)%Z then (if (nth 0 idx 0 =? 1)%Z then 10004 # 10000000 else 1 # 1000)%Q else 0%Q)).
  set (y := got (remove (N:=Qn) Qsqrt (fun _ _ => 0%Q) x 0 (1 # 2)%Q (Some 1%Z) (1 # 1000)%Q)).
  exists x, y. do 2 eexists.
  split; [vm_compute; reflexivity|]. split; [vm_compute; reflexivity|]. split; [apply got_ok; vm_compute; reflexivity|]. split; [vm_compute; reflexivity|].
  split; [vm_compute; reflexivity|]. split; vm_compute; reflexivity.
Qed.
Print Assumptions C75_deviation_refuted.
