(** [NURBS.__call__]: what it returns, and when it raises. *)
From Coq Require Import ZArith Reals List Lia Lra Bool.
From Verif Require Import Num Loop ModelBspline ModelBSp ModelNurbs Spec SumZ BPiece BLink ProofSpan ProofEval SpecNurbs ProofNet PropBasis.
Import ListNotations.
Local Open Scope R_scope.

Definition spec_ax (A : axis Rn) : axR := mkAx (a_size A - 1) (a_deg A) (a_knots A).
Definition spec_axes (nrb : nurbs Rn) : list axR := map spec_ax (n_axes nrb).
Definition wf_nurbs (nrb : nurbs Rn) : Prop :=
  (length (n_axes nrb) <= 3)%nat /\ Forall wf_ax (spec_axes nrb) /\ (4 <= n_comp nrb)%Z.

(** Homogeneous component [c] and Cartesian coordinate / field value [c] at a parameter. *)
Definition hom (nrb : nurbs Rn) (c : Z) (us : list R) : R := tsum (spec_axes nrb) (fun idx => n_arr nrb idx c) us.
Definition pt (nrb : nurbs Rn) (c : Z) (us : list R) : R := hom nrb c us / hom nrb 3 us.

(** Parameter values selected by an index list of the result. *)
Fixpoint params (xs : list (vec Rn)) (idx : list Z) : list R :=
  match xs, idx with
  | x :: xs', i :: idx' => v_get x i :: params xs' idx'
  | _, _ => []
  end.
Definition in_range (xs : list (vec Rn)) (idx : list Z) : Prop :=
  Forall2 (fun x i => (0 <= i < v_len x)%Z) xs idx.
(** Nonempty arrays of parameters of the domain, one per axis. *)
Definition good_args (axs : list axR) (xs : list (vec Rn)) : Prop :=
  Forall2 (fun a x => (1 <= v_len x)%Z /\ forall i, (0 <= i < v_len x)%Z -> in_domain (x_n a) (x_p a) (x_U a) (v_get x i)) axs xs.

Lemma params_box axs xs idx : good_args axs xs -> in_range xs idx -> in_box axs (params xs idx).
Proof.
  intros G. revert idx. induction G as [|a x axs xs [H1 H2] G IH]; intros idx I; inversion I; subst; simpl; constructor.
  - apply H2. auto.
  - apply IH. auto.
Qed.

Lemma Forall2_len {A B} (P : A -> B -> Prop) l l' : Forall2 P l l' -> length l = length l'.
Proof. intros H. induction H; simpl; auto. Qed.

Lemma a_len_eq (A : axis Rn) : a_len A = (a_size A - 1 + a_deg A + 2)%Z.
Proof. unfold a_deg. lia. Qed.
Lemma a_hi_eq (A : axis Rn) : a_hi A = a_knots A (a_size A - 1 + 1)%Z.
Proof. unfold a_hi, a_deg. f_equal. lia. Qed.
Lemma a_lo_eq (A : axis Rn) : a_lo A = a_knots A (a_deg A).
Proof. reflexivity. Qed.

Section Call.
Variables (junk : Z -> R) (junk2 : Z -> Z -> R) (junk3 : Z -> Z -> Z -> R) (junkS : Z -> Z).
Let pyEval := py_Evaluate (N:=Rn) junk junk2 junk3 junkS.
Let call' := call (N:=Rn) junk junk2 junk3 junkS.
Let evaluate' := evaluate (N:=Rn) junk junk2 junk3 junkS.

Lemma wf_ax_size A : wf_ax (spec_ax A) -> (2 <= a_size A)%Z /\ (1 <= a_deg A)%Z.
Proof. intros [H W]. pose proof (wf_n _ _ _ W). simpl in *. lia. Qed.

Lemma checks_ok axs : Forall wf_ax (map spec_ax axs) ->
  forallb (fun A : axis Rn => (2 <=? a_size A)%Z && (1 <=? a_deg A)%Z) axs = true.
Proof.
  intros F. apply forallb_forall. intros A HA. rewrite Forall_map, Forall_forall in F.
  destruct (wf_ax_size A (F A HA)). apply andb_true_intro. split; apply Z.leb_le; lia.
Qed.
Lemma lens_ok axs xs : good_args axs xs -> forallb (fun x : vec Rn => (1 <=? v_len x)%Z) xs = true.
Proof.
  intros G. induction G as [|a x axs xs [H1 H2] G IH]; simpl; auto. rewrite IH.
  replace (1 <=? v_len x)%Z with true by (symmetry; apply Z.leb_le; lia). reflexivity.
Qed.

Lemma py_Evaluate_spec axs xs f : (length axs <= 3)%nat -> Forall wf_ax (map spec_ax axs) -> good_args (map spec_ax axs) xs ->
  exists g, pyEval axs xs f = Ok g /\ forall idx, in_range xs idx -> g idx = tsum (map spec_ax axs) f (params xs idx).
Proof.
  intros Hl W G. unfold pyEval, py_Evaluate. rewrite (checks_ok axs W), (lens_ok _ _ G). simpl bind.
  destruct axs as [|A [|B [|C [|D axs]]]]; simpl in Hl; try lia.
  - inversion G; subst. eexists. split; [reflexivity|]. intros idx I. inversion I. reflexivity.
  - inversion G as [|? x ? xs' [L D] G']; subst. inversion G'; subst.
    inversion W as [|? ? [Wp Wk] _]; subst.
    eexists. split; [reflexivity|]. intros idx I. inversion I as [|? i ? idx' Hi I']; subst. inversion I'; subst. 
    cbn [nth params]. etransitivity; [apply C06_Evaluate1; [exact Wk|lia|apply D; lia]|].
    simpl. reflexivity.
  - inversion G as [|? x ? xs' [L D] G']; subst. inversion G' as [|? y ? ys' [L2 D2] G'']; subst. inversion G''; subst.
    inversion W as [|? ? [Wp Wk] W']; subst. inversion W' as [|? ? [Wp2 Wk2] _]; subst.
    eexists. split; [reflexivity|]. intros idx I.
    inversion I as [|? i ? idx' Hi I']; subst. inversion I' as [|? j ? idx2 Hj I'']; subst. inversion I''; subst.
    cbn [nth params]. etransitivity; [apply C06_Evaluate2; [exact Wk|exact Wk2|lia|lia|apply D; lia|apply D2; lia]|].
    rewrite surface_nested. reflexivity.
  - inversion G as [|? x ? xs' [L D] G']; subst. inversion G' as [|? y ? ys' [L2 D2] G'']; subst.
    inversion G'' as [|? z ? zs' [L3 D3] G3]; subst. inversion G3; subst.
    inversion W as [|? ? [Wp Wk] W']; subst. inversion W' as [|? ? [Wp2 Wk2] W'']; subst.
    inversion W'' as [|? ? [Wp3 Wk3] _]; subst.
    eexists. split; [reflexivity|]. intros idx I.
    inversion I as [|? i ? idx' Hi I']; subst. inversion I' as [|? j ? idx2 Hj I'']; subst.
    inversion I'' as [|? k ? idx3 Hk I3]; subst. inversion I3; subst.
    cbn [nth params]. etransitivity; [apply C06_Evaluate3;
      [exact Wk|exact Wk2|exact Wk3|lia|lia|lia|apply D; lia|apply D2; lia|apply D3; lia]|].
    rewrite volume_nested. simpl. unfold curve. apply sumZ_ext. intros a Ha. f_equal.
    rewrite surface_nested. reflexivity.
Qed.

Lemma py_EvaluateAll_spec axs xs f : (length axs <= 3)%nat -> Forall wf_ax (map spec_ax axs) -> good_args (map spec_ax axs) xs ->
  exists g, py_EvaluateAll (N:=Rn) junk junk2 junk3 junkS axs xs f = Ok g /\
    forall idx c, in_range xs idx -> g idx c = tsum (map spec_ax axs) (fun i => f i c) (params xs idx).
Proof.
  intros Hl W G. unfold py_EvaluateAll. fold pyEval.
  destruct (py_Evaluate_spec axs xs (fun idx => f idx 0%Z) Hl W G) as [g0 [E0 _]]. rewrite E0. simpl bind.
  eexists. split; [reflexivity|]. intros idx c I. cbv beta.
  destruct (py_Evaluate_spec axs xs (fun idx => f idx c) Hl W G) as [g [E H]]. rewrite E. apply H; auto.
Qed.

Lemma zseq_In c : forall lo i, In i (zseq c lo) <-> (lo <= i < lo + Z.of_nat c)%Z.
Proof.
  induction c; intros lo i; simpl zseq; simpl In.
  - split; [tauto|lia].
  - rewrite IHc. split; intros.
    + destruct H; [subst; lia|lia].
    + destruct (Z.eq_dec lo i); auto. right. lia.
Qed.

Lemma vall_spec (f : R -> bool) (u : vec Rn) : vall (N:=Rn) f u = true <-> forall i, (0 <= i < v_len u)%Z -> f (v_get u i) = true.
Proof.
  unfold vall. rewrite forallb_forall. split; intros H i Hi.
  - apply H. apply zseq_In. lia.
  - apply H. apply zseq_In in Hi. lia.
Qed.

Lemma eval_arg_ok (A : axis Rn) u : eval_arg A u = Ok u <->
  (1 <= v_len u)%Z /\ forall i, (0 <= i < v_len u)%Z -> in_domain (a_size A - 1) (a_deg A) (a_knots A) (v_get u i).
Proof.
  unfold eval_arg. destruct (Z.leb_spec (v_len u) 0).
  { split; [discriminate|]. intros [H' _]. lia. }
  unfold assert. split.
  - intros E. destruct (vall _ _) eqn:E1 in E; [|discriminate].
    destruct (vall _ _) eqn:E2 in E; [|discriminate].
    split; [lia|]. intros i Hi.
    pose proof (proj1 (vall_spec _ _) E1 i Hi) as X1. pose proof (proj1 (vall_spec _ _) E2 i Hi) as X2.
    apply Rleb_true in X1. apply Rleb_true in X2. rewrite a_hi_eq in X2. split; assumption.
  - intros [_ D]. 
    assert (E1 : vall (fun x => nleb Rn (a_lo A) x) u = true).
    { apply vall_spec. intros i Hi. apply Rleb_true. apply D; auto. }
    assert (E2 : vall (fun x => nleb Rn x (a_hi A)) u = true).
    { apply vall_spec. intros i Hi. apply Rleb_true. rewrite a_hi_eq. apply D; auto. }
    rewrite E1. cbn [bind]. cbn in E2 |- *. rewrite E2. reflexivity.
Qed.

Lemma eval_arg_cases (A : axis Rn) u : eval_arg A u = Ok u \/ exists e, eval_arg A u = Raise e.
Proof.
  unfold eval_arg, assert. destruct (v_len u <=? 0)%Z; eauto. destruct (vall _ u); simpl; eauto.
  destruct (vall _ u); simpl; eauto.
Qed.

Lemma eval_args_ok axs : forall xs, length xs = length axs ->
  (eval_args (N:=Rn) junk axs (map Some xs) = Ok xs <-> good_args (map spec_ax axs) xs).
Proof.
  induction axs as [|A axs IH]; intros xs Hl; destruct xs as [|x xs]; try discriminate; simpl.
  - split; intros; [constructor|reflexivity].
  - simpl in Hl. specialize (IH xs ltac:(lia)). split.
    + intros E. destruct (eval_arg_cases A x) as [E1|[e E1]]; rewrite E1 in E; simpl in E; [|discriminate].
      destruct (eval_args junk axs (map Some xs)) eqn:E2; simpl in E; [|discriminate]. injection E as ->.
      constructor; [apply eval_arg_ok; auto|]. apply IH. reflexivity.
    + intros G. inversion G; subst. assert (E1 : eval_arg A x = Ok x) by (apply eval_arg_ok; auto). rewrite E1. simpl.
      assert (E2 : eval_args junk axs (map Some xs) = Ok xs) by (apply IH; auto). rewrite E2. reflexivity.
Qed.

Lemma eval_args_cases axs : forall xs, length xs = length axs ->
  eval_args (N:=Rn) junk axs (map Some xs) = Ok xs \/ exists e, eval_args (N:=Rn) junk axs (map Some xs) = Raise e.
Proof.
  induction axs as [|A axs IH]; intros xs Hl; destruct xs as [|x xs]; try discriminate; simpl; auto.
  destruct (eval_arg_cases A x) as [E1|[e E1]]; rewrite E1; simpl; eauto.
  destruct (IH xs) as [E2|[e E2]]; [simpl in Hl; lia| |]; rewrite E2; simpl; eauto.
Qed.

Theorem call_spec nrb xs fields nc arr : wf_nurbs nrb -> good_args (spec_axes nrb) xs ->
  call_array (N:=Rn) nrb fields = Ok (nc, arr) ->
  exists C F, call' nrb (map Some xs) fields = Ok (C, F) /\
   (forall idx c, in_range xs idx -> C idx c = tsum (spec_axes nrb) (fun i => arr i c) (params xs idx) /
                                              tsum (spec_axes nrb) (fun i => arr i 3%Z) (params xs idx)) /\
   match fields with
   | FNo => F = None
   | _ => exists G, F = Some G /\ forall idx c, in_range xs idx ->
       G idx c = tsum (spec_axes nrb) (fun i => arr i (4 + c)%Z) (params xs idx) /
                 tsum (spec_axes nrb) (fun i => arr i 3%Z) (params xs idx)
   end.
Proof.
  intros [Hl [W Hc]] G EA. unfold call', call.
  assert (HL : length xs = length (n_axes nrb)).
  { unfold good_args, spec_axes in G. apply Forall2_len in G. rewrite map_length in G. auto. }
  rewrite (proj2 (eval_args_ok _ xs HL) G). simpl bind. rewrite EA. simpl bind. cbn [snd].
  destruct (py_EvaluateAll_spec (n_axes nrb) xs arr Hl W G) as [g [Eg Hg]]. rewrite Eg. simpl bind.
  destruct fields; do 2 eexists; (split; [reflexivity|]); (split;
    [intros idx c I; cbn; rewrite !Hg by auto; reflexivity|]).
  - reflexivity.
  - eexists. split; [reflexivity|]. intros idx c I. cbn. rewrite !Hg by auto. reflexivity.
  - eexists. split; [reflexivity|]. intros idx c I. cbn. rewrite !Hg by auto. reflexivity.
Qed.

Lemma call_raises nrb xs fields : length xs = length (n_axes nrb) -> ~ good_args (spec_axes nrb) xs ->
  exists e, call' nrb (map Some xs) fields = Raise e.
Proof.
  intros HL H. unfold call', call. destruct (eval_args_cases (n_axes nrb) xs HL) as [E|[e E]].
  - exfalso. apply H. apply eval_args_ok; auto.
  - rewrite E. simpl. eauto.
Qed.

Theorem evaluate_spec nrb xs fields nc arr : wf_nurbs nrb -> good_args (spec_axes nrb) xs ->
  evaluate_array (N:=Rn) nrb fields = Ok (nc, arr) ->
  exists F, evaluate' nrb fields (map Some xs) = Ok F /\
   forall idx c, in_range xs idx -> F idx c = tsum (spec_axes nrb) (fun i => arr i (1 + c)%Z) (params xs idx) /
                                              tsum (spec_axes nrb) (fun i => arr i 0%Z) (params xs idx).
Proof.
  intros [Hl [W Hc]] G EA. unfold evaluate', evaluate.
  assert (HL : length xs = length (n_axes nrb)).
  { unfold good_args, spec_axes in G. apply Forall2_len in G. rewrite map_length in G. auto. }
  rewrite (proj2 (eval_args_ok _ xs HL) G). simpl bind. rewrite EA. simpl bind. cbn [snd].
  destruct (py_EvaluateAll_spec (n_axes nrb) xs arr Hl W G) as [g [Eg Hg]]. rewrite Eg. simpl bind.
  eexists. split; [reflexivity|]. intros idx c I. cbn. rewrite !Hg by auto. reflexivity.
Qed.
End Call.
