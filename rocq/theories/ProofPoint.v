(** Evaluation depends on the parameter, the knots and the active control points alone: for every arithmetic. *)
From Coq Require Import ZArith List Bool Lia.
From Verif Require Import Num Loop ModelBspline ModelBSp ModelNurbs SpecPoint ProofEval.
Import ListNotations.
Local Open Scope Z_scope.

Lemma iter_up_rel {A B : Type} (R : Z -> A -> B -> Prop) (f : Z -> A -> A) (g : Z -> B -> B) n :
  forall i a b, R i a b -> (forall j a b, i <= j < i + Z.of_nat n -> R j a b -> R (j + 1) (f j a) (g j b)) -> R (i + Z.of_nat n) (iter_up n i f a) (iter_up n i g b).
Proof.
  induction n; intros i a b H0 H; simpl iter_up.
  - replace (i + Z.of_nat 0) with i by lia. exact H0.
  - replace (i + Z.of_nat (S n)) with ((i + 1) + Z.of_nat n) by lia. apply IHn; [apply H; auto; lia|]. intros j a' b' Hj. apply H. lia.
Qed.
Lemma for_up_rel {A B : Type} (R : Z -> A -> B -> Prop) (f : Z -> A -> A) (g : Z -> B -> B) lo hi a b : lo <= hi + 1 -> R lo a b ->
  (forall j a b, lo <= j <= hi -> R j a b -> R (j + 1) (f j a) (g j b)) -> R (hi + 1) (for_up lo hi f a) (for_up lo hi g b).
Proof.
  intros H H0 HS. unfold for_up. replace (hi + 1) with (lo + Z.of_nat (Z.to_nat (hi + 1 - lo))) at 1 by lia.
  apply iter_up_rel; auto. intros j a' b' Hj. apply HS. lia.
Qed.
Lemma for_up_ext {A : Type} lo hi (f g : Z -> A -> A) a : (forall j x, lo <= j <= hi -> f j x = g j x) -> for_up lo hi f a = for_up lo hi g a.
Proof.
  intros H. destruct (Z_le_gt_dec lo (hi + 1)) as [L|L]; [|rewrite !for_up_empty by lia; reflexivity].
  apply (for_up_rel (fun _ (x y : A) => x = y)); auto. intros j x y Hj ->. apply H. exact Hj.
Qed.
Definition okb {A : Type} (r : res A) : bool := match r with Ok _ => true | Raise _ => false end.
Section P.
Context {N : Num}.
Lemma basis_inner_det j lft rgt lft' rgt' (Nf Nf' : Z -> N) s : 0 <= j -> (forall i, 1 <= i <= j -> lft i = lft' i /\ rgt i = rgt' i) -> (forall i, 0 <= i < j -> Nf i = Nf' i) ->
  let a := for_up 0 (j - 1) (BasisFuns_inner j lft rgt) (Nf, s) in let b := for_up 0 (j - 1) (BasisFuns_inner j lft' rgt') (Nf', s) in
  (forall i, 0 <= i < j -> fst a i = fst b i) /\ snd a = snd b.
Proof.
  intros Hj HL HN. cbv zeta.
  apply (for_up_rel (fun _ (x y : (Z -> N) * N) => (forall i, 0 <= i < j -> fst x i = fst y i) /\ snd x = snd y)); [lia|auto|].
  intros r [x sx] [y sy] Hr [H1 H2]. cbn [fst snd] in *. subst sy. unfold BasisFuns_inner. cbn [fst snd].
  destruct (HL (r + 1) ltac:(lia)) as [_ ->]. destruct (HL (j - r) ltac:(lia)) as [-> _]. rewrite (H1 r) by lia. split; [|reflexivity].
  intros i Hi. unfold upd. destruct (i =? r); auto.
Qed.
Lemma basis_det k u p (U : Z -> N) junk junk' i : 0 <= i <= p -> BasisFuns k u p U junk i = BasisFuns k u p U junk' i.
Proof.
  intros Hi. unfold BasisFuns.
  assert (H : let a := for_up 1 p (BasisFuns_outer k u U) (upd junk 0 (n1 N), junk, junk) in let b := for_up 1 p (BasisFuns_outer k u U) (upd junk' 0 (n1 N), junk', junk') in
     (forall i, 0 <= i < p + 1 -> fst (fst a) i = fst (fst b) i) /\ forall i, 1 <= i < p + 1 -> snd (fst a) i = snd (fst b) i /\ snd a i = snd b i).
  { cbv zeta. apply (for_up_rel (fun j (x y : (Z -> N) * (Z -> N) * (Z -> N)) =>
      (forall i, 0 <= i < j -> fst (fst x) i = fst (fst y) i) /\ forall i, 1 <= i < j -> snd (fst x) i = snd (fst y) i /\ snd x i = snd y i)); [lia| |].
    - cbn [fst snd]. split; [|lia]. intros m Hm. unfold upd. replace (m =? 0) with true by (symmetry; apply Z.eqb_eq; lia). reflexivity.
    - intros j [[x l] r] [[y l'] r'] Hj [H1 H2]. cbn [fst snd] in *. unfold BasisFuns_outer.
      set (L := upd l j _). set (L' := upd l' j _). set (Q := upd r j _). set (Q' := upd r' j _).
      assert (HLQ : forall i, 1 <= i < j + 1 -> L i = L' i /\ Q i = Q' i).
      { intros m Hm. unfold L, L', Q, Q', upd. destruct (Z.eqb_spec m j); [auto|]. apply H2. lia. }
      destruct (basis_inner_det j L Q L' Q' x y (n0 N) ltac:(lia)) as [E1 E2]; [intros; apply HLQ; lia|exact H1|].
      destruct (for_up 0 (j - 1) (BasisFuns_inner j L Q) (x, n0 N)) as [Nx sx]. destruct (for_up 0 (j - 1) (BasisFuns_inner j L' Q') (y, n0 N)) as [Ny sy].
      cbn [fst snd] in *. subst sy. split; [|exact HLQ]. intros m Hm. unfold upd. destruct (Z.eqb_spec m j); [reflexivity|]. apply E1. lia. }
  destruct (for_up 1 p (BasisFuns_outer k u U) (upd junk 0 (n1 N), junk, junk)) as [[a1 a2] a3].
  destruct (for_up 1 p (BasisFuns_outer k u U) (upd junk' 0 (n1 N), junk', junk')) as [[b1 b2] b3]. cbn [fst snd] in H. apply H. lia.
Qed.
Lemma tables_gen n p (U : Z -> N) r X junk sj bj i : 0 <= i <= r ->
  fst (tables n p U r X junk sj bj) i = FindSpan n p (X i) U /\ snd (tables n p U r X junk sj bj) i = BasisFuns (FindSpan n p (X i) U) (X i) p U junk.
Proof.
  intros Hi. unfold tables.
  floop (fun k (s : (Z -> Z) * (Z -> Z -> N)) => forall j, 0 <= j < k -> fst s j = FindSpan n p (X j) U /\ snd s j = BasisFuns (FindSpan n p (X j) U) (X j) p U junk).
  - intros; lia.
  - intros k [s b] Hk IH j Hj. cbn [fst snd]. unfold upd at 1 2. destruct (Z.eqb_spec j k) as [->|Ne].
    + split; [reflexivity|]. rewrite upd_same. reflexivity.
    + cbn [fst snd] in IH. apply IH. lia.
  - intros s H. apply H. lia.
Qed.
(** The sums, without tables and uninitialised memory. *)
Definition sp (A : axis N) (u : N) : Z := FindSpan (a_size A - 1) (a_deg A) u (a_knots A).
Definition bs (A : axis N) (u : N) : Z -> N := BasisFuns (sp A u) u (a_deg A) (a_knots A) (fun _ => n0 N).
Definition sum1 (A : axis N) (u : N) (f : list Z -> N) : N :=
  for_up 0 (a_deg A) (fun j C => nadd N C (nmul N (bs A u j) (f [sp A u - a_deg A + j]))) (n0 N).
Definition sum2 (A B : axis N) (u v : N) (f : list Z -> N) : N :=
  for_up 0 (a_deg A) (fun j C => for_up 0 (a_deg B) (fun k C => nadd N C (nmul N (nmul N (bs A u j) (bs B v k)) (f [sp A u - a_deg A + j; sp B v - a_deg B + k]))) C) (n0 N).
Definition sum3 (A B D : axis N) (u v w : N) (f : list Z -> N) : N :=
  for_up 0 (a_deg A) (fun j C => for_up 0 (a_deg B) (fun k C => for_up 0 (a_deg D) (fun l C =>
    nadd N C (nmul N (nmul N (nmul N (bs A u j) (bs B v k)) (bs D w l)) (f [sp A u - a_deg A + j; sp B v - a_deg B + k; sp D w - a_deg D + l]))) C) C) (n0 N).
Definition sums (axs : list (axis N)) (us : list N) (f : list Z -> N) : N :=
  match axs, us with
  | [], _ => f [] | [A], [u] => sum1 A u f | [A; B], [u; v] => sum2 A B u v f | [A; B; D], [u; v; w] => sum3 A B D u v w f | _, _ => n0 N
  end.
Lemma py_Evaluate_sums junk junk2 junk3 junkS axs xs f g idx us : py_Evaluate (N:=N) junk junk2 junk3 junkS axs xs f = Ok g -> picks xs idx us -> g idx = sums axs us f.
Proof.
  unfold py_Evaluate. destruct (forallb _ axs); [|discriminate]. cbn [check bind]. destruct (forallb _ xs); [|discriminate]. cbn [check bind].
  intros E PK. destruct axs as [|A [|B [|D [|]]]]; destruct xs as [|x [|y [|z [|]]]]; try discriminate; injection E as <-; try reflexivity.
  - inversion PK as [|? i ? ? ? Hi PK1]; subst. inversion PK1; subst. cbn [nth sums]. unfold Evaluate1, sum1. cbv zeta.
    rewrite (@for_up_store N 0 (v_len x - 1) (fun i => for_up 0 (a_deg A) (fun j C => nadd N C (nmul N (BasisFuns (FindSpan (a_size A - 1) (a_deg A) (v_get x i) (a_knots A)) (v_get x i) (a_deg A) (a_knots A) junk j)
      (f [FindSpan (a_size A - 1) (a_deg A) (v_get x i) (a_knots A) - a_deg A + j]))) (n0 N)) junk i) by lia.
    apply for_up_ext. intros j C Hj. unfold bs, sp. rewrite (basis_det _ _ _ _ junk (fun _ => n0 N) j) by exact Hj. reflexivity.
  - inversion PK as [|? i ? ? ? Hi PK1]; subst. inversion PK1 as [|? j ? ? ? Hj PK2]; subst. inversion PK2; subst. cbn [nth sums]. unfold Evaluate2, sum2. cbv zeta.
    destruct (tables_gen (a_size A - 1) (a_deg A) (a_knots A) (v_len x - 1) (v_get x) junk junkS junk2 i ltac:(lia)) as [S1 B1].
    destruct (tables_gen (a_size B - 1) (a_deg B) (a_knots B) (v_len y - 1) (v_get y) junk junkS junk2 j ltac:(lia)) as [S2 B2].
    destruct (tables (a_size A - 1) (a_deg A) (a_knots A) (v_len x - 1) (v_get x) junk junkS junk2) as [s1 b1].
    destruct (tables (a_size B - 1) (a_deg B) (a_knots B) (v_len y - 1) (v_get y) junk junkS junk2) as [s2 b2]. cbn [fst snd] in *.
    match goal with |- for_up 0 ?h (fun i0 Cw => for_up 0 ?h2 (fun j0 Cw => upd2 Cw j0 i0 (@?G i0 j0)) Cw) _ _ _ = _ => rewrite (@for_up_store2 N 0 h 0 h2 G junk2 i j) by lia end.
    cbv beta. rewrite S1, S2, B1, B2. apply for_up_ext. intros a C Ha. apply for_up_ext. intros b C' Hb. unfold bs, sp.
    rewrite (basis_det _ _ _ _ junk (fun _ => n0 N) a) by exact Ha. rewrite (basis_det _ _ _ _ junk (fun _ => n0 N) b) by exact Hb. reflexivity.
  - inversion PK as [|? i ? ? ? Hi PK1]; subst. inversion PK1 as [|? j ? ? ? Hj PK2]; subst. inversion PK2 as [|? k ? ? ? Hk PK3]; subst. inversion PK3; subst. cbn [nth sums]. unfold Evaluate3, sum3. cbv zeta.
    destruct (tables_gen (a_size A - 1) (a_deg A) (a_knots A) (v_len x - 1) (v_get x) junk junkS junk2 i ltac:(lia)) as [S1 B1].
    destruct (tables_gen (a_size B - 1) (a_deg B) (a_knots B) (v_len y - 1) (v_get y) junk junkS junk2 j ltac:(lia)) as [S2 B2].
    destruct (tables_gen (a_size D - 1) (a_deg D) (a_knots D) (v_len z - 1) (v_get z) junk junkS junk2 k ltac:(lia)) as [S3 B3].
    destruct (tables (a_size A - 1) (a_deg A) (a_knots A) (v_len x - 1) (v_get x) junk junkS junk2) as [s1 b1].
    destruct (tables (a_size B - 1) (a_deg B) (a_knots B) (v_len y - 1) (v_get y) junk junkS junk2) as [s2 b2].
    destruct (tables (a_size D - 1) (a_deg D) (a_knots D) (v_len z - 1) (v_get z) junk junkS junk2) as [s3 b3]. cbn [fst snd] in *.
    match goal with |- for_up 0 ?h (fun i0 Cw => for_up 0 ?h2 (fun j0 Cw => for_up 0 ?h3 (fun k0 Cw => upd3 Cw k0 j0 i0 (@?G i0 j0 k0)) Cw) Cw) _ _ _ _ = _ =>
      rewrite (@for_up_store3 N 0 h 0 h2 0 h3 G junk3 i j k) by lia end.
    cbv beta. rewrite S1, S2, S3, B1, B2, B3. apply for_up_ext. intros a C Ha. apply for_up_ext. intros b C' Hb. apply for_up_ext. intros c C2 Hc. unfold bs, sp.
    rewrite (basis_det _ _ _ _ junk (fun _ => n0 N) a) by exact Ha. rewrite (basis_det _ _ _ _ junk (fun _ => n0 N) b) by exact Hb. rewrite (basis_det _ _ _ _ junk (fun _ => n0 N) c) by exact Hc. reflexivity.
Qed.
(** Whether the kernel accepts does not depend on the values. *)
Lemma py_Evaluate_any junk junk2 junk3 junkS axs xs f f' : okb (py_Evaluate (N:=N) junk junk2 junk3 junkS axs xs f) = okb (py_Evaluate (N:=N) junk junk2 junk3 junkS axs xs f').
Proof.
  unfold py_Evaluate. destruct (forallb _ axs); [|reflexivity]. cbn [check bind]. destruct (forallb _ xs); [|reflexivity]. cbn [check bind].
  destruct axs as [|A [|B [|D [|]]]]; destruct xs as [|x [|y [|z [|]]]]; reflexivity.
Qed.
Lemma py_EvaluateAll_sums junk junk2 junk3 junkS axs xs f g idx us c : py_EvaluateAll (N:=N) junk junk2 junk3 junkS axs xs f = Ok g -> picks xs idx us ->
  g idx c = sums axs us (fun i => f i c).
Proof.
  unfold py_EvaluateAll. destruct (py_Evaluate _ _ _ _ axs xs (fun idx => f idx 0)) as [g0|] eqn:E0; [|discriminate]. cbn [bind]. intros E PK. injection E as <-.
  destruct (py_Evaluate _ _ _ _ axs xs (fun i => f i c)) as [g1|] eqn:E1.
  - apply (py_Evaluate_sums _ _ _ _ _ _ _ _ _ _ E1 PK).
  - pose proof (py_Evaluate_any junk junk2 junk3 junkS axs xs (fun i => f i 0) (fun i => f i c)) as H. rewrite E0, E1 in H. discriminate.
Qed.
End P.
