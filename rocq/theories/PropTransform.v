(** Transforms (C48).  Vocabulary: [apply4 M P c]: component c of the image of the homogeneous
    point P (the call of a transform object); [rodrigues u a x]: x turned by the angle a about the
    unit vector u; [meant], [axis_meant]: which vector the arguments denote (ProofTransform.v). *)
From Coq Require Import ZArith Reals List Lia Lra Bool.
From Verif Require Import Num Loop ModelNurbs ModelTransform SpecTransform SumZ ProofSpan ProofTransform ExTac.
Import ListNotations.
Local Open Scope R_scope.

(** Composition applies the argument after the receiver; a 3x3 argument acts on the first three
    components; other shapes raise AssertionError. *)
Theorem C48_compose : forall (self : matR) m M' P c, compose self m = Ok M' -> (0 <= c < 4)%Z ->
  let Q := apply4 (N:=Rn) self P in
  match m with
  | MTrans M => apply4 (N:=Rn) M' P c = apply4 (N:=Rn) M Q c
  | MArr r k M =>
      (r = 4%Z /\ k = 4%Z /\ apply4 (N:=Rn) M' P c = apply4 (N:=Rn) M Q c) \/
      (r = 3%Z /\ k = 3%Z /\ apply4 (N:=Rn) M' P c = if (c <? 3)%Z then Q 0%Z * M c 0%Z + Q 1%Z * M c 1%Z + Q 2%Z * M c 2%Z else Q 3%Z)
  end.
Proof. exact compose_spec. Qed.
Print Assumptions C48_compose.
Theorem C48_compose_accepts : forall (self : matR) m,
  (forall r k M, m = MArr r k M -> (r = 4 /\ k = 4 \/ r = 3 /\ k = 3)%Z) -> exists M', compose self m = Ok M'.
Proof. exact compose_accepts. Qed.
Print Assumptions C48_compose_accepts.
(** A 3x3 array after a general 4x4 receiver. *)
Example C48_compose_example : exists M', compose (N:=Rn) (fun i j => IZR (i + 2 * j)) (MArr 3 3 (fun i j => IZR (i * j))) = Ok M' /\ apply4 (N:=Rn) M' (fun _ => 1) 1 = 56.
Proof. eexists. split; [reflexivity|]. unfold apply4, dot44, embed33. cbn. lra. Qed.

(** translate adds the displacement (in Cartesian coordinates), scale multiplies by the factors. *)
Theorem C48_translate : forall (self : matR) d axis M', translate self d axis = Ok M' ->
  exists v, meant 0 (fun x i => if (i =? 0)%Z then x else 0) d axis v /\
  forall P, let Q := apply4 (N:=Rn) self P in
    (forall c, (0 <= c < 3)%Z -> apply4 (N:=Rn) M' P c = Q c + v c * Q 3%Z) /\ apply4 (N:=Rn) M' P 3 = Q 3%Z.
Proof. exact translate_spec. Qed.
Print Assumptions C48_translate.
Theorem C48_scale : forall (self : matR) d axis M', scale self d axis = Ok M' ->
  exists v, meant 1 (fun x i => x) d axis v /\
  forall P, let Q := apply4 (N:=Rn) self P in
    (forall c, (0 <= c < 3)%Z -> apply4 (N:=Rn) M' P c = v c * Q c) /\ apply4 (N:=Rn) M' P 3 = Q 3%Z.
Proof. exact scale_spec. Qed.
Print Assumptions C48_scale.
(** They accept every argument with a meaning. *)
Theorem C48_accepts : forall (self : matR) d axis, (exists v, meant 0 (fun x i => if (i =? 0)%Z then x else 0) d axis v) ->
  (exists M', translate self d axis = Ok M') /\ (exists M', scale self d axis = Ok M').
Proof. exact accepts_spec. Qed.
Print Assumptions C48_accepts.
Example C48_translate_example : exists v, meant 0 (fun x i => if (i =? 0)%Z then x else 0) (Scal 5) (Some (-1)%Z) v /\ v 2%Z = 5 /\ v 0%Z = 0.
Proof.
  exists (fun i => if (i =? 2)%Z then 5 else 0). split; [|split; reflexivity]. split; [lia|]. exists 5. split; [auto|]. intros i Hi. reflexivity.
Qed.

(** Rotation: for a nonzero angle the turn about the unit vector of the axis; for the angle zero
    nothing changes.  [axis_meant] says that a vector axis means its direction, a number a
    coordinate axis. *)
Theorem C48_rotate : forall (self : matR) a ax M', rotate (N:=Rn) sin cos sqrt self a ax = Ok M' -> a <> 0 ->
  exists u, axis_meant ax u /\ dot3 u u = 1 /\
  forall P, let Q := apply4 (N:=Rn) self P in
    (forall c, (0 <= c < 3)%Z -> apply4 (N:=Rn) M' P c = rodrigues u a Q c) /\ apply4 (N:=Rn) M' P 3 = Q 3%Z.
Proof. exact rotate_spec. Qed.
Print Assumptions C48_rotate.
Theorem C48_rotate_zero : forall (self : matR) ax, rotate (N:=Rn) sin cos sqrt self 0 ax = Ok self.
Proof. exact rotate_0. Qed.
Print Assumptions C48_rotate_zero.
Theorem C48_rotate_accepts : forall (self : matR) a ax, (exists u, axis_meant ax u) -> exists M', rotate (N:=Rn) sin cos sqrt self a ax = Ok M'.
Proof. exact rotate_accepts. Qed.
Print Assumptions C48_rotate_accepts.
(** Turning keeps inner products and orientation, fixes the axis, and angles add. *)
Theorem C48_turn : forall u a b x y z, dot3 u u = 1 ->
  dot3 (rodrigues u a x) (rodrigues u a y) = dot3 x y /\
  det (rodrigues u a x) (rodrigues u a y) (rodrigues u a z) = det x y z /\
  (forall i, (0 <= i < 3)%Z -> rodrigues u a u i = u i) /\
  (forall i, (0 <= i < 3)%Z -> rodrigues u b (rodrigues u a x) i = rodrigues u (a + b) x i).
Proof. exact turn_spec. Qed.
Print Assumptions C48_turn.
(** A vector axis along a coordinate axis gives the same map as the number of that axis. *)
Theorem C48_axis_forms : forall (self : matR) a k v M1 M2, (0 <= k < 3)%Z -> v_len v = 3%Z ->
  (exists l, 0 < l /\ forall i, (0 <= i < 3)%Z -> v_get v i = l * e3 k i) ->
  rotate (N:=Rn) sin cos sqrt self a (AxNum k) = Ok M1 -> rotate (N:=Rn) sin cos sqrt self a (AxVec v) = Ok M2 ->
  forall P c, (0 <= c < 4)%Z -> apply4 (N:=Rn) M1 P c = apply4 (N:=Rn) M2 P c.
Proof. exact axis_forms. Qed.
Print Assumptions C48_axis_forms.
Example C48_rotate_example : exists u, axis_meant (AxVec (mkVec (N:=Rn) 2 (fun i => if (i =? 0)%Z then 3 else 4))) u /\ u 1%Z = 4 / 5.
Proof.
  exists (fun i => if (i =? 0)%Z then 3 / 5 else if (i =? 1)%Z then 4 / 5 else 0). split; [|reflexivity]. cbn. split; [lia|]. exists 5. split; [lra|].
  split; [unfold dot3; cbn; lra|]. intros i Hi. three i Hi; cbn; lra.
Qed.
Example C48_axis_example : exists l, 0 < l /\ forall i, (0 <= i < 3)%Z -> v_get (mkVec (N:=Rn) 3 (fun i => if (i =? 1)%Z then 7 else 0)) i = l * e3 1 i.
Proof. exists 7. split; [lra|]. intros i Hi. three i Hi; cbn; unfold e3; cbn; lra. Qed.

(** The inverse undoes the map on both sides, and only maps without inverse are rejected. *)
Theorem C48_invert : forall (self : matR) M', invert self = Ok M' -> forall P c, (0 <= c < 4)%Z ->
  apply4 (N:=Rn) M' (apply4 (N:=Rn) self P) c = P c /\ apply4 (N:=Rn) self (apply4 (N:=Rn) M' P) c = P c.
Proof. exact invert_spec. Qed.
Print Assumptions C48_invert.
Theorem C48_invert_raises : forall (self : matR) e, invert self = Raise e ->
  e = ValueError /\ ~ exists B : matR, forall P c, (0 <= c < 4)%Z -> apply4 (N:=Rn) B (apply4 (N:=Rn) self P) c = P c.
Proof. exact invert_raises. Qed.
Print Assumptions C48_invert_raises.
Example C48_invert_example : exists M', invert (N:=Rn) (fun i j => if (i =? j)%Z then 2 else if (i <? j)%Z then 1 else 0) = Ok M' /\ M' 0%Z 0%Z = 1 / 2.
Proof.
  unfold invert. match goal with |- context [neqb Rn ?d _] => assert (D : d = 16) by (unfold det4, cofac, oth, det3; cbn; lra); rewrite D end.
  assert (E : neqb Rn 16 (n0 Rn) = false) by (apply Reqb_false; cbn; lra). rewrite E. eexists. split; [reflexivity|]. cbn. unfold cofac, oth, det3. cbn. lra.
Qed.

(** The methods of a transform object change that object only, also when it shares its array with
    others (clones); [inverse] changes no existing object. *)
Theorem C48_inverse_fresh : forall h t h' k, t_inverse h t = Ok (h', k) -> h_wf h t ->
  (forall s, h_wf h s -> s <> k /\ value_of (N:=Rn) h' s = value_of h s) /\ invert (value_of h t) = Ok (value_of h' k).
Proof. exact inverse_heap. Qed.
Print Assumptions C48_inverse_fresh.
Theorem C48_methods_local : forall h t h' s, h_wf h s -> h_wf h t ->
  ((exists a, t_compose h t a = Ok h') \/ (exists d ax, t_translate h t d ax = Ok h') \/ (exists d ax, t_scale h t d ax = Ok h') \/
   (exists a ax, t_rotate (N:=Rn) sin cos sqrt h t a ax = Ok h') \/ t_invert h t = Ok h') ->
  h_wf h' s /\ (s <> t -> value_of (N:=Rn) h' s = value_of h s).
Proof. exact methods_local. Qed.
Print Assumptions C48_methods_local.
(** Two objects sharing one array; the second is moved, the first is not. *)
Example C48_heap_example : let h := mkHeap (N:=Rn) (fun _ => 0%Z) (fun _ => ident) 2 in h_wf h 0 /\ h_wf h 1 /\ h_matrix h 0%Z = h_matrix h 1%Z /\
  exists h', t_translate h 1 (Scal 5) None = Ok h' /\ value_of h' 1%Z 0%Z 3%Z = 5 /\ value_of h' 0%Z 0%Z 3%Z = 0.
Proof.
  cbn. unfold h_wf. cbn. repeat split; try lia. eexists. split; [reflexivity|]. unfold t_rebind, value_of, upd, dot44, ident. cbn. lra.
Qed.
