(** C90, C91: what a computed point depends on, bit for bit.  Vocabulary: SpecPoint.v ([picks], [singles], [same_at],
    [same_fields], [near_support]). *)
From Coq Require Import ZArith List Bool Lia Reals Lra SpecFloat.
From Verif Require Import Num Loop ModelBspline ModelBSp ModelNurbs ModelFloat Spec SpecNurbs SpecDouble SpecRound SpecPoint ProofPoint ProofPoint2 ProofRound ProofRound2 ProofRound3 ExTac PropDouble PropRound.
Import ListNotations.
Local Open Scope Z_scope.

(** ** C90: a point depends on its own parameters alone, in every arithmetic *)
(** Two calls, with other parameters around and other contents of uninitialised memory. *)
Theorem C90_call : forall (N : Num) junk junk2 junk3 junkS junk' junk2' junk3' junkS' (nrb : nurbs N) xs xs' fields C F C' F' idx idx' us,
  length xs = length (n_axes nrb) -> length xs' = length (n_axes nrb) ->
  call junk junk2 junk3 junkS nrb (map Some xs) fields = Ok (C, F) -> call junk' junk2' junk3' junkS' nrb (map Some xs') fields = Ok (C', F') ->
  picks xs idx us -> picks xs' idx' us -> same_at C C' idx idx' /\ same_fields F F' idx idx'.
Proof. exact @call_same. Qed.
Print Assumptions C90_call.
(** nrb(u)[i] is nrb(u[i]). *)
Theorem C90_single : forall (N : Num) junk junk2 junk3 junkS junk' junk2' junk3' junkS' (nrb : nurbs N) xs fields C F idx us,
  length xs = length (n_axes nrb) -> call junk junk2 junk3 junkS nrb (map Some xs) fields = Ok (C, F) -> picks xs idx us ->
  exists C' F', call junk' junk2' junk3' junkS' nrb (map Some (singles us)) fields = Ok (C', F') /\
    same_at C C' idx (map (fun _ => 0) us) /\ same_fields F F' idx (map (fun _ => 0) us).
Proof. exact @call_single. Qed.
Print Assumptions C90_single.
Theorem C90_evaluate : forall (N : Num) junk junk2 junk3 junkS junk' junk2' junk3' junkS' (nrb : nurbs N) xs xs' fields F F' idx idx' us,
  length xs = length (n_axes nrb) -> length xs' = length (n_axes nrb) ->
  evaluate junk junk2 junk3 junkS nrb fields (map Some xs) = Ok F -> evaluate junk' junk2' junk3' junkS' nrb fields (map Some xs') = Ok F' ->
  picks xs idx us -> picks xs' idx' us -> same_at F F' idx idx'.
Proof. exact @evaluate_same. Qed.
Print Assumptions C90_evaluate.
(** The rational curve of C85, in doubles, at 0.1 and 0.3: the second point. *)
Example C90_example : length [arc_at] = length (n_axes arc) /\ picks (N:=Dn) [arc_at] [1] [dec 3 1] /\
  is_ok (call (N:=Dn) dj dj2 dj3 (fun _ => 0) arc (map Some [arc_at]) FYes) = true /\ is_ok (evaluate (N:=Dn) dj dj2 dj3 (fun _ => 0) arc None (map Some [arc_at])) = true.
Proof.
  split; [reflexivity|]. split; [exact (picks_cons (N:=Dn) arc_at 1 [] [] [] ltac:(cbn; lia) (picks_nil (N:=Dn)))|]. split; vm_compute; reflexivity.
Qed.

(** ** C91: control points away from the parameter have no influence at all in double precision *)
(** Not even if they are infinite or NaN. *)
Local Open Scope R_scope.
Theorem C91_local : forall junk junk2 junk3 junkS junk' junk2' junk3' junkS' (nrb nrb' : nurbs Dn) xs (fields : bool) C F C' F' idx us c,
  n_axes nrb' = n_axes nrb -> Forall (fun A : axis Dn => wf_ax (real_ax A) /\ forall k, (0 <= k < a_len A)%Z -> finite (a_knots A k)) (n_axes nrb) ->
  Forall2 mild_arg (n_axes nrb) xs -> picks (N:=Dn) xs idx us ->
  call (N:=Dn) junk junk2 junk3 junkS nrb (map Some xs) (if fields then FYes else FNo) = Ok (C, F) ->
  call (N:=Dn) junk' junk2' junk3' junkS' nrb' (map Some xs) (if fields then FYes else FNo) = Ok (C', F') ->
  (forall i, near_support (n_axes nrb) us i -> n_arr nrb' i c = n_arr nrb i c /\ n_arr nrb' i 3%Z = n_arr nrb i 3%Z) ->
  C' idx c = C idx c.
Proof. exact call_local. Qed.
Print Assumptions C91_local.
(** A polygon over 0, 1, 2 at 1.5: the first vertex may be NaN. *)
Definition poly (x : Dn) : nurbs Dn := dcrv 3 (ints [0; 0; 1; 2; 2]%Z) [x; dbl_of_Z 2; dbl_of_Z 3].
Definition poly_at : vec Dn := mkVec (N:=Dn) 1 (fun _ => dec 15 1).
Example C91_example : let nrb := poly (dbl_of_Z 1) in let nrb' := poly S754_nan in
  n_axes nrb' = n_axes nrb /\ Forall (fun A : axis Dn => wf_ax (real_ax A) /\ forall k, (0 <= k < a_len A)%Z -> finite (a_knots A k)) (n_axes nrb) /\
  Forall2 mild_arg (n_axes nrb) [poly_at] /\ picks (N:=Dn) [poly_at] [0%Z] [dec 15 1] /\
  is_ok (call (N:=Dn) dj dj2 dj3 (fun _ => 0%Z) nrb (map Some [poly_at]) FNo) = true /\ is_ok (call (N:=Dn) dj dj2 dj3 (fun _ => 0%Z) nrb' (map Some [poly_at]) FNo) = true /\
  (forall i, near_support (n_axes nrb) [dec 15 1] i -> forall c, n_arr nrb' i c = n_arr nrb i c) /\ n_arr nrb' [0%Z] 0%Z <> n_arr nrb [0%Z] 0%Z.
Proof.
  cbv zeta.
  assert (D2 : dval (dbl_of_Z 2) = 2) by (change (dval (S754_finite false 4503599627370496 (-51)) = 2); cbn [dval]; unfold b2; simpl; lra).
  assert (L1 : dval (dbl_of_Z 1) < dval (dec 15 1)) by (apply ltb_ok; [fin|fin|vm_compute; reflexivity]). assert (L2 : dval (dec 15 1) < dval (dbl_of_Z 2)) by (apply ltb_ok; [fin|fin|vm_compute; reflexivity]).
  rewrite D2 in L2. rewrite dv1 in L1.
  assert (K : forall i, (0 <= i < 5)%Z -> dval (dl (ints [0; 0; 1; 2; 2]%Z) i) = if (i <? 2)%Z then 0 else if (i <? 3)%Z then 1 else 2).
  { intros i Hi. enumz i 0%Z 4%Z; first [exact dv0|exact dv1|exact D2]. }
  split; [reflexivity|]. split; [constructor; [|constructor]; split|].
  - split; [cbn; unfold a_deg; cbn; lia|]. change (wf_knots 2 1 (fun i => dval (dl (ints [0; 0; 1; 2; 2]%Z) i))). constructor; try lia.
    + intros i j Hi Hij Hj. rewrite !K by lia. destruct (Z.ltb_spec i 2), (Z.ltb_spec j 2), (Z.ltb_spec i 3), (Z.ltb_spec j 3); try lra; lia.
    + rewrite !K by lia. cbn. lra.
    + rewrite !K by lia. cbn. lra.
  - cbn [a_len a_knots]. intros k Hk. change (0 <= k < 5)%Z in Hk. enumz k 0%Z 4%Z; fin.
  - split; [constructor; [|constructor]; split; [cbn; lia|]|].
    { intros i Hi. split; [fin|]. change (in_domain 2 1 (fun k => dval (dl (ints [0; 0; 1; 2; 2]%Z) k)) (dval (dec 15 1))). unfold in_domain. rewrite !K by lia. cbn [Z.ltb Z.compare Pos.compare Pos.compare_cont Z.add Pos.add Pos.succ]. lra. }
    split; [exact (picks_cons (N:=Dn) poly_at 0 [] [] [] ltac:(cbn; lia) (picks_nil (N:=Dn)))|].
    split; [vm_compute; reflexivity|]. split; [vm_compute; reflexivity|]. split.
    + intros i HS c. inversion HS as [|A u j ? ? ? Hj H1 H2 HS']; subst. inversion HS'; subst. change (0 <= j < 3)%Z in Hj.
      enumz j 0%Z 2%Z; try reflexivity. exfalso. change (dval (dec 15 1) < dval (dl (ints [0; 0; 1; 2; 2]%Z) 2) \/ dval (dec 15 1) = dval (dl (ints [0; 0; 1; 2; 2]%Z) 3)) in H2.
      rewrite !K in H2 by lia. cbn [Z.ltb Z.compare Pos.compare Pos.compare_cont Z.add Pos.add Pos.succ] in H2. lra.
    + vm_compute. discriminate.
Qed.
