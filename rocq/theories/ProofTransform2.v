(** The methods translate, scale and rotate of NURBS objects. *)
From Coq Require Import ZArith Reals List Lia Lra Bool.
From Verif Require Import Num Loop ModelBspline ModelBSp ModelNurbs ModelTransform Spec SpecNurbs SpecTransform SumZ ProofSpan ProofTransform ProofNet ProofCall ProofGeom2 ExTac PropNurbs.
Import ListNotations.
Local Open Scope R_scope.

(** The image of the Cartesian point x. *)
Definition homog (x : Z -> R) : Z -> R := fun i => if (i =? 3)%Z then 1 else x i.
Lemma entry3 (M : matR) k : (0 <= k < 4)%Z -> apply4 (N:=Rn) M (fun i => if (i =? k)%Z then 1 else 0) 3 = M 3%Z k.
Proof. intros H. unfold apply4. rn. enumz k 0%Z 3%Z; cbn; lra. Qed.
Lemma affine_of (M : matR) : (forall P, apply4 (N:=Rn) M P 3 = apply4 (N:=Rn) ident P 3) -> affine M.
Proof.
  intros H. unfold affine. rewrite <- !(entry3 M) by lia. rewrite !H. unfold apply4, ident. cbn. repeat split; lra.
Qed.
Lemma id_apply P c : (0 <= c < 4)%Z -> apply4 (N:=Rn) ident P c = P c.
Proof. intros H. unfold apply4, ident. rn. enumz c 0%Z 3%Z; cbn; lra. Qed.
Lemma transform_points (nrb : nurbs Rn) (M : matR) (f : (Z -> R) -> Z -> R) xs : wf_nurbs nrb -> good_args (spec_axes nrb) xs ->
  (forall P, apply4 (N:=Rn) M P 3 = apply4 (N:=Rn) ident P 3) -> (forall x c, (0 <= c < 3)%Z -> apply4 (N:=Rn) M (homog x) c = f x c) ->
  (forall idx, in_range xs idx -> hom nrb 3 (params xs idx) <> 0) ->
  forall j j2 j3 jS, exists C F C' F',
    call (N:=Rn) j j2 j3 jS nrb (map Some xs) FYes = Ok (C, Some F) /\ call (N:=Rn) j j2 j3 jS (transform nrb M) (map Some xs) FYes = Ok (C', Some F') /\
    forall idx, in_range xs idx -> (forall c, (0 <= c < 3)%Z -> C' idx c = f (C idx) c) /\ (forall c, (0 <= c)%Z -> F' idx c = F idx c).
Proof.
  intros W G H3 Hf Hw j j2 j3 jS. destruct (C10_transform nrb M xs W G (affine_of M H3) Hw j j2 j3 jS) as (C & F & C' & F' & E & E' & H).
  exists C, F, C', F'. split; [exact E|]. split; [exact E'|]. intros idx I. destruct (H idx I) as [H1 H2]. split; [|exact H2]. intros c Hc. rewrite (H1 c Hc), <- (Hf (C idx) c Hc).
  unfold apply4, homog. rn. cbn [Z.eqb Pos.eqb]. lra.
Qed.
Theorem translate_points : forall nrb d axis nrb' xs, n_translate nrb d axis = Ok nrb' -> wf_nurbs nrb -> good_args (spec_axes nrb) xs ->
  (forall idx, in_range xs idx -> hom nrb 3 (params xs idx) <> 0) ->
  exists v, meant 0 (fun x i => if (i =? 0)%Z then x else 0) d axis v /\ forall j j2 j3 jS, exists C F C' F',
    call (N:=Rn) j j2 j3 jS nrb (map Some xs) FYes = Ok (C, Some F) /\ call (N:=Rn) j j2 j3 jS nrb' (map Some xs) FYes = Ok (C', Some F') /\
    forall idx, in_range xs idx -> (forall c, (0 <= c < 3)%Z -> C' idx c = C idx c + v c) /\ (forall c, (0 <= c)%Z -> F' idx c = F idx c).
Proof.
  intros nrb d axis nrb' xs E W G Hw. unfold n_translate in E. destruct (translate ident d axis) as [M|] eqn:EM; [|discriminate]. cbn [bind] in E. injection E as <-.
  destruct (translate_spec ident d axis M EM) as (v & Hv & H). exists v. split; [exact Hv|]. apply (transform_points nrb M (fun x c => x c + v c) xs W G); [intros P; apply H| |exact Hw].
  intros x c Hc. rewrite (proj1 (H (homog x)) c Hc), !id_apply by lia. unfold homog. destruct (Z.eqb_spec c 3); [lia|]. cbn. lra.
Qed.
Theorem scale_points : forall nrb d axis nrb' xs, n_scale nrb d axis = Ok nrb' -> wf_nurbs nrb -> good_args (spec_axes nrb) xs ->
  (forall idx, in_range xs idx -> hom nrb 3 (params xs idx) <> 0) ->
  exists v, meant 1 (fun x i => x) d axis v /\ forall j j2 j3 jS, exists C F C' F',
    call (N:=Rn) j j2 j3 jS nrb (map Some xs) FYes = Ok (C, Some F) /\ call (N:=Rn) j j2 j3 jS nrb' (map Some xs) FYes = Ok (C', Some F') /\
    forall idx, in_range xs idx -> (forall c, (0 <= c < 3)%Z -> C' idx c = v c * C idx c) /\ (forall c, (0 <= c)%Z -> F' idx c = F idx c).
Proof.
  intros nrb d axis nrb' xs E W G Hw. unfold n_scale in E. destruct (scale ident d axis) as [M|] eqn:EM; [|discriminate]. cbn [bind] in E. injection E as <-.
  destruct (scale_spec ident d axis M EM) as (v & Hv & H). exists v. split; [exact Hv|]. apply (transform_points nrb M (fun x c => v c * x c) xs W G); [intros P; apply H| |exact Hw].
  intros x c Hc. rewrite (proj1 (H (homog x)) c Hc), !id_apply by lia. unfold homog. destruct (Z.eqb_spec c 3); [lia|]. reflexivity.
Qed.
Theorem rotate_points : forall nrb a ax nrb' xs, n_rotate (N:=Rn) sin cos sqrt nrb a ax = Ok nrb' -> a <> 0 -> wf_nurbs nrb -> good_args (spec_axes nrb) xs ->
  (forall idx, in_range xs idx -> hom nrb 3 (params xs idx) <> 0) ->
  exists u, axis_meant ax u /\ dot3 u u = 1 /\ forall j j2 j3 jS, exists C F C' F',
    call (N:=Rn) j j2 j3 jS nrb (map Some xs) FYes = Ok (C, Some F) /\ call (N:=Rn) j j2 j3 jS nrb' (map Some xs) FYes = Ok (C', Some F') /\
    forall idx, in_range xs idx -> (forall c, (0 <= c < 3)%Z -> C' idx c = rodrigues u a (C idx) c) /\ (forall c, (0 <= c)%Z -> F' idx c = F idx c).
Proof.
  intros nrb a ax nrb' xs E Ha W G Hw. unfold n_rotate in E. destruct (rotate (N:=Rn) sin cos sqrt ident a ax) as [M|] eqn:EM; [|discriminate]. cbn [bind] in E. injection E as <-.
  destruct (rotate_spec ident a ax M EM Ha) as (u & Hu & Hd & H). exists u. split; [exact Hu|]. split; [exact Hd|]. apply (transform_points nrb M (rodrigues u a) xs W G); [intros P; apply H| |exact Hw].
  intros x c Hc. rewrite (proj1 (H (homog x)) c Hc). unfold rodrigues, dot3, cross. rewrite !id_apply by lia. unfold homog. destruct (Z.eqb_spec c 3); [lia|]. reflexivity.
Qed.
(** Accepted arguments are accepted by the methods; the zero angle leaves the control points as they are. *)
Theorem methods_accept : forall (nrb : nurbs Rn), (forall d axis, (exists v, meant 0 (fun x i => if (i =? 0)%Z then x else 0) d axis v) ->
    (exists nrb', n_translate nrb d axis = Ok nrb') /\ exists nrb', n_scale nrb d axis = Ok nrb') /\
  (forall a ax, (exists u, axis_meant ax u) -> exists nrb', n_rotate (N:=Rn) sin cos sqrt nrb a ax = Ok nrb') /\
  forall ax, exists nrb', n_rotate (N:=Rn) sin cos sqrt nrb 0 ax = Ok nrb' /\ n_axes nrb' = n_axes nrb /\ n_comp nrb' = n_comp nrb /\ forall idx c, (0 <= c)%Z -> n_arr nrb' idx c = n_arr nrb idx c.
Proof.
  intros nrb. split; [|split].
  - intros d axis H. destruct (accepts_spec ident d axis H) as [[M1 E1] [M2 E2]]. unfold n_translate, n_scale. rewrite E1, E2. cbn [bind]. split; eexists; reflexivity.
  - intros a ax H. destruct (rotate_accepts ident a ax H) as [M E]. unfold n_rotate. rewrite E. eexists. reflexivity.
  - intros ax. unfold n_rotate. rewrite rotate_0. cbn [bind]. eexists. split; [reflexivity|]. split; [reflexivity|]. split; [reflexivity|]. intros idx c Hc.
    cbn [transform n_arr]. destruct (Z.ltb_spec c 4); [|reflexivity]. apply (id_apply (n_arr nrb idx) c). lia.
Qed.

(** ** Building and copying transform objects *)
(** [t.matrix[...] = M]: an assignment into the array of t, as a user may write it. *)
Definition write_into (h : heap (N:=Rn)) (t : Z) (M : matR) : heap := mkHeap (h_matrix h) (upd (h_array h) (h_matrix h t) M) (h_next h).
Theorem new_spec : (exists M0 : matR, new_transform None = Ok M0 /\ forall P c, (0 <= c < 4)%Z -> apply4 (N:=Rn) M0 P c = P c) /\
  (forall M : matR, new_transform (Some (MTrans M)) = Ok M) /\
  forall r k (M : matR), (r = 4%Z -> k = 4%Z -> new_transform (Some (MArr r k M)) = Ok M) /\ (r <> 4%Z \/ k <> 4%Z -> new_transform (Some (MArr r k M)) = Raise AssertionError).
Proof.
  split; [eexists; split; [reflexivity|]; intros; apply id_apply; assumption|]. split; [reflexivity|]. intros r k M. split; [intros -> ->; reflexivity|].
  intros H. cbn [new_transform]. destruct (Z.eqb_spec r 4), (Z.eqb_spec k 4); try reflexivity. lia.
Qed.
Theorem copy_spec : forall (h : heap (N:=Rn)) t h' k, h_wf h t -> t_copy h t = (h', k) ->
  value_of h' k = value_of h t /\ forall s, h_wf h s -> s <> k /\ value_of h' s = value_of h s /\
    forall M, value_of (write_into h' k M) s = value_of h s /\ value_of (write_into h' s M) k = value_of h t /\ value_of (write_into h' s M) s = M.
Proof.
  intros h t h' k Ht E. unfold t_copy, t_alloc in E. injection E as <- <-. unfold value_of, write_into, upd. cbn. repeat (rewrite Z.eqb_refl; cbn). split; [reflexivity|].
  intros s [S1 S2]. assert (Ne : s <> h_next h) by lia. assert (Nm : h_matrix h s <> h_next h) by lia. split; [exact Ne|].
  destruct (Z.eqb_spec s (h_next h)); [contradiction|]. destruct (Z.eqb_spec (h_matrix h s) (h_next h)); [contradiction|]. split; [reflexivity|]. intros M. rewrite Z.eqb_refl.
  split; [reflexivity|]. destruct (Z.eqb_spec (h_next h) (h_matrix h s)); [lia|]. auto.
Qed.
Theorem clone_spec : forall (h : heap (N:=Rn)) t h' k, h_wf h t -> t_clone h t = (h', k) ->
  value_of h' k = value_of h t /\ (forall s, h_wf h s -> s <> k /\ value_of h' s = value_of h s) /\
  forall M, value_of (write_into h' k M) t = M /\ value_of (write_into h' t M) k = M.
Proof.
  intros h t h' k [T1 T2] E. unfold t_clone in E. injection E as <- <-. unfold value_of, write_into, upd. cbn. repeat (rewrite Z.eqb_refl; cbn). split; [reflexivity|]. split.
  - intros s [S1 S2]. destruct (Z.eqb_spec s (h_next h)); [lia|]. auto.
  - intros M. destruct (Z.eqb_spec t (h_next h)); [lia|]. rewrite !Z.eqb_refl. auto.
Qed.

(** What the methods leave in the object. *)
Lemma methods_value (h : heap (N:=Rn)) t : h_wf h t -> let T := value_of h t in
  (forall s, exists h', t_compose h t (HTrans s) = Ok h' /\ forall P c, (0 <= c < 4)%Z -> apply4 (N:=Rn) (value_of h' t) P c = apply4 (N:=Rn) (value_of h s) (apply4 (N:=Rn) T P) c) /\
  (forall r k M h', t_compose h t (HArr r k M) = Ok h' -> compose T (MArr r k M) = Ok (value_of h' t)) /\
  (forall d ax h', t_translate h t d ax = Ok h' -> translate T d ax = Ok (value_of h' t)) /\
  (forall d ax h', t_scale h t d ax = Ok h' -> scale T d ax = Ok (value_of h' t)) /\
  (forall a ax h', t_rotate (N:=Rn) sin cos sqrt h t a ax = Ok h' -> rotate (N:=Rn) sin cos sqrt T a ax = Ok (value_of h' t)) /\
  (forall h', t_invert h t = Ok h' -> invert T = Ok (value_of h' t)).
Proof.
  intros Ht. cbv zeta. assert (G : forall (m : res matR) h', bind m (fun M => Ok (t_rebind h t M)) = Ok h' -> m = Ok (value_of h' t)).
  { intros [M|e] h' E; [|discriminate]. injection E as <-. rewrite rebind_value, Z.eqb_refl by auto. reflexivity. }
  split; [|split; [|split; [|split; [|split]]]].
  - intros s. assert (E : t_compose h t (HTrans s) = Ok (t_rebind h t (dot44 (value_of h s) (value_of h t)))) by reflexivity.
    eexists. split; [exact E|]. apply G in E. intros P c Hc. exact (compose_spec _ _ _ P c E Hc).
  - intros r k M h' E. exact (G _ _ E).
  - intros d ax h' E. exact (G _ _ E).
  - intros d ax h' E. exact (G _ _ E).
  - intros a ax h' E. unfold t_rotate in E. destruct (neqb Rn a (n0 Rn)) eqn:Ea; [|exact (G _ _ E)].
    injection E as <-. unfold rotate. rewrite Ea. reflexivity.
  - intros h' E. exact (G _ _ E).
Qed.
