(** C10: the methods translate (move), scale and rotate of NURBS objects.  Vocabulary: SpecTransform.v ([rodrigues]),
    ProofTransform.v ([meant], [axis_meant]: the vectors denoted by the arguments), as for C48. *)
From Coq Require Import ZArith Reals List Lia Lra Bool.
From Verif Require Import Num Loop ModelBspline ModelBSp ModelNurbs ModelTransform Spec SpecNurbs SpecTransform ProofSpan ProofTransform ProofNet ProofCall ProofGeom2 ProofTransform2 ExTac PropNurbs.
Import ListNotations.
Local Open Scope R_scope.

(** Every point moves by the displacement; fields stay. *)
Theorem C10_translate : forall nrb d axis nrb' xs, n_translate nrb d axis = Ok nrb' -> wf_nurbs nrb -> good_args (spec_axes nrb) xs ->
  (forall idx, in_range xs idx -> hom nrb 3 (params xs idx) <> 0) ->
  exists v, meant 0 (fun x i => if (i =? 0)%Z then x else 0) d axis v /\ forall j j2 j3 jS, exists C F C' F',
    call (N:=Rn) j j2 j3 jS nrb (map Some xs) FYes = Ok (C, Some F) /\ call (N:=Rn) j j2 j3 jS nrb' (map Some xs) FYes = Ok (C', Some F') /\
    forall idx, in_range xs idx -> (forall c, (0 <= c < 3)%Z -> C' idx c = C idx c + v c) /\ (forall c, (0 <= c)%Z -> F' idx c = F idx c).
Proof. exact translate_points. Qed.
Print Assumptions C10_translate.
(** Every coordinate is multiplied by its factor. *)
Theorem C10_scale : forall nrb d axis nrb' xs, n_scale nrb d axis = Ok nrb' -> wf_nurbs nrb -> good_args (spec_axes nrb) xs ->
  (forall idx, in_range xs idx -> hom nrb 3 (params xs idx) <> 0) ->
  exists v, meant 1 (fun x i => x) d axis v /\ forall j j2 j3 jS, exists C F C' F',
    call (N:=Rn) j j2 j3 jS nrb (map Some xs) FYes = Ok (C, Some F) /\ call (N:=Rn) j j2 j3 jS nrb' (map Some xs) FYes = Ok (C', Some F') /\
    forall idx, in_range xs idx -> (forall c, (0 <= c < 3)%Z -> C' idx c = v c * C idx c) /\ (forall c, (0 <= c)%Z -> F' idx c = F idx c).
Proof. exact scale_points. Qed.
Print Assumptions C10_scale.
(** Every point is turned about the axis through the origin. *)
Theorem C10_rotate : forall nrb a ax nrb' xs, n_rotate (N:=Rn) sin cos sqrt nrb a ax = Ok nrb' -> a <> 0 -> wf_nurbs nrb -> good_args (spec_axes nrb) xs ->
  (forall idx, in_range xs idx -> hom nrb 3 (params xs idx) <> 0) ->
  exists u, axis_meant ax u /\ dot3 u u = 1 /\ forall j j2 j3 jS, exists C F C' F',
    call (N:=Rn) j j2 j3 jS nrb (map Some xs) FYes = Ok (C, Some F) /\ call (N:=Rn) j j2 j3 jS nrb' (map Some xs) FYes = Ok (C', Some F') /\
    forall idx, in_range xs idx -> (forall c, (0 <= c < 3)%Z -> C' idx c = rodrigues u a (C idx) c) /\ (forall c, (0 <= c)%Z -> F' idx c = F idx c).
Proof. exact rotate_points. Qed.
Print Assumptions C10_rotate.
(** The methods accept all arguments with a meaning; turning by the angle zero changes nothing. *)
Theorem C10_accepts : forall (nrb : nurbs Rn), (forall d axis, (exists v, meant 0 (fun x i => if (i =? 0)%Z then x else 0) d axis v) ->
    (exists nrb', n_translate nrb d axis = Ok nrb') /\ exists nrb', n_scale nrb d axis = Ok nrb') /\
  (forall a ax, (exists u, axis_meant ax u) -> exists nrb', n_rotate (N:=Rn) sin cos sqrt nrb a ax = Ok nrb') /\
  forall ax, exists nrb', n_rotate (N:=Rn) sin cos sqrt nrb 0 ax = Ok nrb' /\ n_axes nrb' = n_axes nrb /\ n_comp nrb' = n_comp nrb /\ forall idx c, (0 <= c)%Z -> n_arr nrb' idx c = n_arr nrb idx c.
Proof. exact methods_accept. Qed.
Print Assumptions C10_accepts.
(** The rational surface exS: moved by 5 along the last axis, stretched by (2, 3), turned about the first axis. *)
Example C10_methods_example : exists n1 n2 n3, n_translate exS (Scal 5) (Some (-1)%Z) = Ok n1 /\ n_scale exS (Vect (mkVec (N:=Rn) 2 (fun i => IZR (i + 2)))) None = Ok n2 /\
  n_rotate (N:=Rn) sin cos sqrt exS 1 (AxNum 0) = Ok n3 /\ wf_nurbs exS /\ good_args (spec_axes exS) exArgs /\ (forall idx, in_range exArgs idx -> hom exS 3 (params exArgs idx) <> 0).
Proof.
  destruct (methods_accept exS) as (H1 & H2 & _).
  destruct (H1 (Scal 5) (Some (-1)%Z)) as [[n1 E1] _].
  { exists (fun i => if (i =? 2)%Z then 5 else 0). split; [lia|]. exists 5. split; [auto|]. intros i Hi. reflexivity. }
  destruct (H1 (Vect (mkVec (N:=Rn) 2 (fun i => IZR (i + 2)))) None) as [_ [n2 E2]].
  { exists (fun i => if (i <? 2)%Z then IZR (i + 2) else 0). split; [cbn; lia|]. reflexivity. }
  destruct (H2 1 (AxNum 0)) as [n3 E3].
  { exists (e3 0). split; [lia|]. reflexivity. }
  exists n1, n2, n3. split; [exact E1|]. split; [exact E2|]. split; [exact E3|]. split; [exact exS_wf|]. split; [exact exArgs_good|]. apply C10_example.
Qed.

(** ** C48: building and copying transform objects *)
(** transform() is the identity; transform(T) has the matrix of T; an array must have the shape (4, 4). *)
Theorem C48_new : (exists M0 : matR, new_transform None = Ok M0 /\ forall P c, (0 <= c < 4)%Z -> apply4 (N:=Rn) M0 P c = P c) /\
  (forall M : matR, new_transform (Some (MTrans M)) = Ok M) /\
  forall r k (M : matR), (r = 4%Z -> k = 4%Z -> new_transform (Some (MArr r k M)) = Ok M) /\ (r <> 4%Z \/ k <> 4%Z -> new_transform (Some (MArr r k M)) = Raise AssertionError).
Proof. exact new_spec. Qed.
Print Assumptions C48_new.
(** A copy has an array of its own, a clone shares the array: an assignment into the array of one object
    ([t.matrix[...] = M], [write_into]) reaches the other exactly if it is a clone. *)
Theorem C48_copy : forall (h : heap (N:=Rn)) t h' k, h_wf h t -> t_copy h t = (h', k) ->
  value_of h' k = value_of h t /\ forall s, h_wf h s -> s <> k /\ value_of h' s = value_of h s /\
    forall M, value_of (write_into h' k M) s = value_of h s /\ value_of (write_into h' s M) k = value_of h t /\ value_of (write_into h' s M) s = M.
Proof. exact copy_spec. Qed.
Print Assumptions C48_copy.
Theorem C48_clone : forall (h : heap (N:=Rn)) t h' k, h_wf h t -> t_clone h t = (h', k) ->
  value_of h' k = value_of h t /\ (forall s, h_wf h s -> s <> k /\ value_of h' s = value_of h s) /\
  forall M, value_of (write_into h' k M) t = M /\ value_of (write_into h' t M) k = M.
Proof. exact clone_spec. Qed.
Print Assumptions C48_clone.
(** The methods leave in the object what the arguments mean: composing with another object (or with
    itself) applies that object's matrix after its own; the others as in C48_compose and the
    theorems following it. *)
Theorem C48_methods_value : forall (h : heap (N:=Rn)) t, h_wf h t -> let T := value_of h t in
  (forall s, exists h', t_compose h t (HTrans s) = Ok h' /\ forall P c, (0 <= c < 4)%Z -> apply4 (N:=Rn) (value_of h' t) P c = apply4 (N:=Rn) (value_of h s) (apply4 (N:=Rn) T P) c) /\
  (forall r k M h', t_compose h t (HArr r k M) = Ok h' -> compose T (MArr r k M) = Ok (value_of h' t)) /\
  (forall d ax h', t_translate h t d ax = Ok h' -> translate T d ax = Ok (value_of h' t)) /\
  (forall d ax h', t_scale h t d ax = Ok h' -> scale T d ax = Ok (value_of h' t)) /\
  (forall a ax h', t_rotate (N:=Rn) sin cos sqrt h t a ax = Ok h' -> rotate (N:=Rn) sin cos sqrt T a ax = Ok (value_of h' t)) /\
  (forall h', t_invert h t = Ok h' -> invert T = Ok (value_of h' t)).
Proof. exact methods_value. Qed.
Print Assumptions C48_methods_value.
Example C48_copy_example : let h := mkHeap (N:=Rn) (fun _ => 0%Z) (fun _ => ident) 1 in h_wf h 0 /\ snd (t_copy h 0) = 1%Z /\ snd (t_clone h 0) = 1%Z.
Proof. cbn. unfold h_wf. cbn. repeat split; lia. Qed.
