(** Calls at single parameters and in arrays; control points that are not read. *)
From Coq Require Import ZArith List Bool Lia Reals Lra.
From Verif Require Import Num Loop ModelBspline ModelBSp ModelNurbs ModelFloat Spec SpecNurbs SpecDouble SpecRound SpecPoint ProofEval ProofPoint BLink ProofRound4 ProofRound7.
Import ListNotations.
Local Open Scope Z_scope.

Section P.
Context {N : Num}.
Lemma eval_args_id junk axs xs ys : length xs = length axs -> eval_args (N:=N) junk axs (map Some xs) = Ok ys -> ys = xs.
Proof.
  revert xs ys. induction axs as [|A axs IH]; intros [|x xs] ys L E; cbn in L; try discriminate; cbn [eval_args] in E.
  - injection E as <-. reflexivity.
  - cbn [map hd tl] in E. unfold eval_arg at 1 in E. destruct (v_len x <=? 0); [discriminate|]. destruct (vall _ x); [|discriminate]. cbn [assert bind] in E. destruct (vall _ x); [|discriminate]. cbn [assert bind] in E.
    destruct (eval_args junk axs (map Some xs)) as [zs|] eqn:E1; [|discriminate]. cbn [bind] in E. injection E as <-. f_equal. apply IH; auto.
Qed.
Lemma vall_in (f : N -> bool) u i : vall f u = true -> 0 <= i < v_len u -> f (v_get u i) = true.
Proof.
  unfold vall. intros H Hi. rewrite forallb_forall in H. apply H.
  assert (Z1 : forall n s, s <= i < s + Z.of_nat n -> In i (zseq n s)).
  { induction n; intros s Hs; [lia|]. cbn [zseq]. destruct (Z.eq_dec s i); [left; auto|right; apply IHn; lia]. }
  apply Z1. lia.
Qed.
Lemma singles_ok junk junk' axs xs ys idx us : length xs = length axs -> eval_args (N:=N) junk axs (map Some xs) = Ok ys -> picks xs idx us ->
  eval_args (N:=N) junk' axs (map Some (singles us)) = Ok (singles us).
Proof.
  intros L E PK. revert axs L ys E. induction PK as [|x i xs idx us Hi PK IH]; intros [|A axs] L ys E; cbn in L; try discriminate; [reflexivity|].
  cbn [eval_args map hd tl] in E. unfold eval_arg at 1 in E. destruct (v_len x <=? 0); [discriminate|]. destruct (vall _ x) eqn:V1; [|discriminate]. cbn [assert bind] in E.
  destruct (vall (fun x0 => nleb N x0 (a_hi A)) x) eqn:V2; [|discriminate]. cbn [assert bind] in E.
  destruct (eval_args junk axs (map Some xs)) as [zs|] eqn:E1; [|discriminate].
  cbn [singles map eval_args hd tl]. fold (singles us). unfold eval_arg. cbn [v_len v_get Z.leb Z.compare].
  assert (S1 : forall f : N -> bool, vall f x = true -> vall f (mkVec 1 (fun _ => v_get x i)) = true).
  { intros f H. unfold vall. cbn. rewrite (vall_in f x i H Hi). reflexivity. }
  rewrite (S1 _ V1), (S1 _ V2). cbn [assert bind]. rewrite (IH axs ltac:(lia) zs E1). reflexivity.
Qed.
Lemma picks_len (xs : list (vec N)) idx us : picks xs idx us -> length us = length xs.
Proof. induction 1; cbn; lia. Qed.
Lemma picks_singles (us : list N) : picks (singles us) (map (fun _ => 0) us) us.
Proof. induction us as [|u us IH]; [constructor|]. exact (picks_cons (mkVec 1 (fun _ => u)) 0 (singles us) (map (fun _ => 0) us) us ltac:(cbn; lia) IH). Qed.
Lemma singles_Evaluate junk junk2 junk3 junkS junk' junk2' junk3' junkS' axs xs f g idx us : py_Evaluate (N:=N) junk junk2 junk3 junkS axs xs f = Ok g -> picks xs idx us ->
  exists g', py_Evaluate (N:=N) junk' junk2' junk3' junkS' axs (singles us) f = Ok g'.
Proof.
  unfold py_Evaluate. destruct (forallb _ axs); [|discriminate]. cbn [check bind]. destruct (forallb _ xs); [|discriminate]. cbn [check bind]. intros E PK.
  assert (S1 : forallb (fun x : vec N => 1 <=? v_len x) (singles us) = true) by (clear; induction us; [reflexivity|exact IHus]). rewrite S1. cbn [check bind].
  pose proof (picks_len _ _ _ PK) as L. destruct axs as [|A [|B [|D [|]]]]; destruct xs as [|x [|y [|z [|]]]]; try discriminate;
  destruct us as [|u1 [|u2 [|u3 [|]]]]; try discriminate; cbn [singles map]; eexists; reflexivity.
Qed.
Lemma singles_All junk junk2 junk3 junkS junk' junk2' junk3' junkS' axs xs f g idx us : py_EvaluateAll (N:=N) junk junk2 junk3 junkS axs xs f = Ok g -> picks xs idx us ->
  exists g', py_EvaluateAll (N:=N) junk' junk2' junk3' junkS' axs (singles us) f = Ok g'.
Proof.
  unfold py_EvaluateAll. destruct (py_Evaluate junk junk2 junk3 junkS axs xs (fun idx => f idx 0)) as [g0|] eqn:E0; [|discriminate]. intros _ PK.
  destruct (singles_Evaluate _ _ _ _ junk' junk2' junk3' junkS' _ _ _ _ _ _ E0 PK) as [g' E']. rewrite E'. eexists. reflexivity.
Qed.

Theorem call_same : forall junk junk2 junk3 junkS junk' junk2' junk3' junkS' (nrb : nurbs N) xs xs' fields C F C' F' idx idx' us,
  length xs = length (n_axes nrb) -> length xs' = length (n_axes nrb) ->
  call junk junk2 junk3 junkS nrb (map Some xs) fields = Ok (C, F) -> call junk' junk2' junk3' junkS' nrb (map Some xs') fields = Ok (C', F') ->
  picks xs idx us -> picks xs' idx' us -> same_at C C' idx idx' /\ same_fields F F' idx idx'.
Proof.
  intros junk junk2 junk3 junkS junk' junk2' junk3' junkS' nrb xs xs' fields C F C' F' idx idx' us L L' E E' PK PK'. unfold call in *.
  destruct (eval_args junk (n_axes nrb) (map Some xs)) as [ys|] eqn:Ea; [|discriminate]. apply eval_args_id in Ea; [|exact L]. subst ys. cbn [bind] in E.
  destruct (eval_args junk' (n_axes nrb) (map Some xs')) as [ys|] eqn:Ea'; [|discriminate]. apply eval_args_id in Ea'; [|exact L']. subst ys. cbn [bind] in E'.
  destruct (call_array nrb fields) as [A|]; [|discriminate]. cbn [bind] in E, E'.
  destruct (py_EvaluateAll junk junk2 junk3 junkS (n_axes nrb) xs (snd A)) as [g|] eqn:Eg; [|discriminate]. cbn [bind] in E.
  destruct (py_EvaluateAll junk' junk2' junk3' junkS' (n_axes nrb) xs' (snd A)) as [g'|] eqn:Eg'; [|discriminate]. cbn [bind] in E'.
  assert (H : forall c, g idx c = g' idx' c).
  { intros c. rewrite (py_EvaluateAll_sums _ _ _ _ _ _ _ _ _ _ c Eg PK), (py_EvaluateAll_sums _ _ _ _ _ _ _ _ _ _ c Eg' PK'). reflexivity. }
  destruct fields; injection E as <- <-; injection E' as <- <-; cbn [same_fields]; unfold same_at; (split; [intros c; rewrite !H; reflexivity|]); auto; intros c; rewrite !H; reflexivity.
Qed.
Theorem call_single : forall junk junk2 junk3 junkS junk' junk2' junk3' junkS' (nrb : nurbs N) xs fields C F idx us,
  length xs = length (n_axes nrb) -> call junk junk2 junk3 junkS nrb (map Some xs) fields = Ok (C, F) -> picks xs idx us ->
  exists C' F', call junk' junk2' junk3' junkS' nrb (map Some (singles us)) fields = Ok (C', F') /\
    same_at C C' idx (map (fun _ => 0) us) /\ same_fields F F' idx (map (fun _ => 0) us).
Proof.
  intros junk junk2 junk3 junkS junk' junk2' junk3' junkS' nrb xs fields C F idx us L E PK.
  assert (EX : exists C' F', call junk' junk2' junk3' junkS' nrb (map Some (singles us)) fields = Ok (C', F')).
  { unfold call in *. destruct (eval_args junk (n_axes nrb) (map Some xs)) as [ys|] eqn:Ea; [|discriminate]. rewrite (singles_ok junk junk' _ _ _ _ _ L Ea PK). apply eval_args_id in Ea; [|exact L]. subst ys. cbn [bind] in *.
    destruct (call_array nrb fields) as [A|]; [|discriminate]. cbn [bind] in *.
    destruct (py_EvaluateAll junk junk2 junk3 junkS (n_axes nrb) xs (snd A)) as [g|] eqn:Eg; [|discriminate].
    destruct (singles_All _ _ _ _ junk' junk2' junk3' junkS' _ _ _ _ _ _ Eg PK) as [g' Eg']. rewrite Eg'. cbn [bind]. destruct fields; do 2 eexists; reflexivity. }
  destruct EX as (C' & F' & E'). exists C', F'. split; [exact E'|].
  assert (L' : length (singles us) = length (n_axes nrb)) by (unfold singles; rewrite map_length, (picks_len _ _ _ PK); exact L).
  exact (call_same _ _ _ _ _ _ _ _ nrb xs (singles us) fields C F C' F' idx _ us L L' E E' PK (picks_singles us)).
Qed.
Theorem evaluate_same : forall junk junk2 junk3 junkS junk' junk2' junk3' junkS' (nrb : nurbs N) xs xs' fields F F' idx idx' us,
  length xs = length (n_axes nrb) -> length xs' = length (n_axes nrb) ->
  evaluate junk junk2 junk3 junkS nrb fields (map Some xs) = Ok F -> evaluate junk' junk2' junk3' junkS' nrb fields (map Some xs') = Ok F' ->
  picks xs idx us -> picks xs' idx' us -> same_at F F' idx idx'.
Proof.
  intros junk junk2 junk3 junkS junk' junk2' junk3' junkS' nrb xs xs' fields F F' idx idx' us L L' E E' PK PK'. unfold evaluate in *.
  destruct (eval_args junk (n_axes nrb) (map Some xs)) as [ys|] eqn:Ea; [|discriminate]. apply eval_args_id in Ea; [|exact L]. subst ys. cbn [bind] in E.
  destruct (eval_args junk' (n_axes nrb) (map Some xs')) as [ys|] eqn:Ea'; [|discriminate]. apply eval_args_id in Ea'; [|exact L']. subst ys. cbn [bind] in E'.
  destruct (evaluate_array nrb fields) as [A|]; [|discriminate]. cbn [bind] in E, E'.
  destruct (py_EvaluateAll junk junk2 junk3 junkS (n_axes nrb) xs (snd A)) as [g|] eqn:Eg; [|discriminate]. cbn [bind] in E.
  destruct (py_EvaluateAll junk' junk2' junk3' junkS' (n_axes nrb) xs' (snd A)) as [g'|] eqn:Eg'; [|discriminate]. cbn [bind] in E'.
  injection E as <-. injection E' as <-. intros c.
  rewrite !(py_EvaluateAll_sums _ _ _ _ _ _ _ _ _ _ _ Eg PK), !(py_EvaluateAll_sums _ _ _ _ _ _ _ _ _ _ _ Eg' PK'). reflexivity.
Qed.

(** ** Control points that are read *)
Definition reads (A : axis N) (u : N) (i : Z) : Prop := sp A u - a_deg A <= i <= sp A u.
Inductive all_read : list (axis N) -> list N -> list Z -> Prop :=
| ar_nil : all_read [] [] [] | ar_cons A u i axs us idx : reads A u i -> all_read axs us idx -> all_read (A :: axs) (u :: us) (i :: idx).
Lemma sums_read axs us f f' : length us = length axs -> (forall i, all_read axs us i -> f i = f' i) -> sums axs us f = sums axs us f'.
Proof.
  intros L H. destruct axs as [|A [|B [|D [|]]]]; destruct us as [|u [|v [|w [|]]]]; try discriminate L; cbn [sums]; try reflexivity.
  - apply H. constructor.
  - apply for_up_ext. intros j C Hj. rewrite H; [reflexivity|]. repeat constructor; unfold reads; lia.
  - apply for_up_ext. intros j C Hj. apply for_up_ext. intros k C' Hk. rewrite H; [reflexivity|]. repeat constructor; unfold reads; lia.
  - apply for_up_ext. intros j C Hj. apply for_up_ext. intros k C' Hk. apply for_up_ext. intros l C2 Hl. rewrite H; [reflexivity|]. repeat constructor; unfold reads; lia.
Qed.
End P.

(** In doubles: the control points whose basis functions do not vanish at the parameter. *)
Local Open Scope R_scope.
Lemma reads_support (A : axis Dn) x i j : wf_ax (real_ax A) -> (forall k, (0 <= k < a_len A)%Z -> finite (a_knots A k)) -> mild_arg A x -> (0 <= i < v_len x)%Z -> reads (N:=Dn) A (v_get x i) j ->
  let U := fun k => dval (a_knots A k) in let u := dval (v_get x i) in
  (0 <= j < a_size A)%Z /\ U j <= u /\ (u < U (j + a_deg A + 1)%Z \/ u = U (a_size A)).
Proof.
  intros [Hp W] FU [_ HX] Hi [R1 R2] U u. cbn in Hp, W. destruct (HX i Hi) as [Fu D].
  assert (EL : (a_len A = a_size A - 1 + a_deg A + 2)%Z) by (unfold a_deg; lia).
  assert (FK : fin_knots (a_size A - 1) (a_deg A) (a_knots A)) by (intros k Hk; apply FU; lia).
  pose proof (span_active _ _ _ _ FK Fu W D) as [Hs Ac]. change (FindSpan (N:=Dn) (a_size A - 1) (a_deg A) (v_get x i) (a_knots A)) with (sp (N:=Dn) A (v_get x i)) in *.
  set (s := sp (N:=Dn) A (v_get x i)) in *. pose proof (wf_mono _ _ _ W) as Mo. cbn beta in Mo. split; [lia|].
  assert (Q1 : U j <= U s) by (apply Mo; lia). replace (a_size A - 1 + 1)%Z with (a_size A) in Ac by lia. destruct Ac as [[A1 A2]|[A1 A2]].
  - change (U s <= u) in A1. change (u < U (s + 1)%Z) in A2. split; [lra|]. left. assert (U (s + 1)%Z <= U (j + a_deg A + 1)%Z) by (apply Mo; lia). lra.
  - split; [|right; exact A2]. unfold u. rewrite A2. apply Rle_trans with (U s); [exact Q1|]. apply Mo; lia.
Qed.

Lemma read_near axs xs idx us i : Forall (fun A : axis Dn => wf_ax (real_ax A) /\ forall k, (0 <= k < a_len A)%Z -> finite (a_knots A k)) axs -> Forall2 mild_arg axs xs ->
  picks (N:=Dn) xs idx us -> all_read (N:=Dn) axs us i -> near_support axs us i.
Proof.
  intros W M PK. revert axs W M i. induction PK as [|x k xs idx us Hk PK IH]; intros axs W M i AR.
  - inversion AR; subst; constructor.
  - inversion AR as [|A u j axs' us' idx' HR AR']; subst. inversion W as [|? ? [W1 W2] W']; subst. inversion M as [|? ? ? ? M1 M']; subst.
    destruct (reads_support A x k j W1 W2 M1 Hk HR) as (S1 & S2 & S3). constructor; auto.
Qed.
Theorem call_local : forall junk junk2 junk3 junkS junk' junk2' junk3' junkS' (nrb nrb' : nurbs Dn) xs (fields : bool) C F C' F' idx us c,
  n_axes nrb' = n_axes nrb -> Forall (fun A : axis Dn => wf_ax (real_ax A) /\ forall k, (0 <= k < a_len A)%Z -> finite (a_knots A k)) (n_axes nrb) ->
  Forall2 mild_arg (n_axes nrb) xs -> picks (N:=Dn) xs idx us ->
  call (N:=Dn) junk junk2 junk3 junkS nrb (map Some xs) (if fields then FYes else FNo) = Ok (C, F) ->
  call (N:=Dn) junk' junk2' junk3' junkS' nrb' (map Some xs) (if fields then FYes else FNo) = Ok (C', F') ->
  (forall i, near_support (n_axes nrb) us i -> n_arr nrb' i c = n_arr nrb i c /\ n_arr nrb' i 3%Z = n_arr nrb i 3%Z) ->
  C' idx c = C idx c.
Proof.
  intros junk junk2 junk3 junkS junk' junk2' junk3' junkS' nrb nrb' xs fields C F C' F' idx us c EX W M PK E E' HA.
  assert (L : length xs = length (n_axes nrb)) by (clear - M; induction M; cbn; auto).
  assert (LU : length us = length (n_axes nrb)) by (rewrite (picks_len _ _ _ PK); exact L).
  unfold call in E, E'. rewrite EX in E'.
  destruct (eval_args (N:=Dn) junk (n_axes nrb) (map Some xs)) as [ys|] eqn:Ea; [|discriminate]. apply eval_args_id in Ea; [|exact L]. subst ys. cbn [bind] in E.
  destruct (eval_args (N:=Dn) junk' (n_axes nrb) (map Some xs)) as [ys|] eqn:Ea'; [|discriminate]. apply eval_args_id in Ea'; [|exact L]. subst ys. cbn [bind] in E'.
  assert (RES : forall g g', py_EvaluateAll (N:=Dn) junk junk2 junk3 junkS (n_axes nrb) xs (n_arr nrb) = Ok g -> py_EvaluateAll (N:=Dn) junk' junk2' junk3' junkS' (n_axes nrb) xs (n_arr nrb') = Ok g' ->
     g' idx c = g idx c /\ g' idx 3%Z = g idx 3%Z).
  { intros g g' Eg Eg'. rewrite !(py_EvaluateAll_sums _ _ _ _ _ _ _ _ _ _ _ Eg PK), !(py_EvaluateAll_sums _ _ _ _ _ _ _ _ _ _ _ Eg' PK).
    split; apply sums_read; auto; intros i Hi; apply HA; apply (read_near _ _ _ _ _ W M PK Hi). }
  destruct fields; cbn [call_array bind snd] in E, E';
  (destruct (py_EvaluateAll (N:=Dn) junk junk2 junk3 junkS (n_axes nrb) xs (n_arr nrb)) as [g|] eqn:Eg; [|discriminate]);
  (destruct (py_EvaluateAll (N:=Dn) junk' junk2' junk3' junkS' (n_axes nrb) xs (n_arr nrb')) as [g'|] eqn:Eg'; [|discriminate]); cbn [bind] in E, E';
  injection E as <- <-; injection E' as <- <-; destruct (RES g g' eq_refl eq_refl) as [-> ->]; reflexivity.
Qed.
