(** The constructors of cad.py (C49 - C61).  Vocabulary (ProofCad.v): [shows nrb f]: nrb is well
    formed and calling it on parameters of its domain gives the points f (parameters) (coordinate);
    [weight_ok nrb]: its weight function has no zero in the domain; [unit_axis]: knots 0,0,1,1;
    [interp us P]: multilinear interpolation of the corner values P; [meant]: the vector denoted by
    a number or array with an optional axis (ProofTransform.v); [sweeps ang start end]: the angles
    an angle argument stands for (ProofCircle.v). *)
From Coq Require Import ZArith Reals List Lia Lra Bool.
From Verif Require Import Num Loop ModelBspline ModelBSp ModelNurbs ModelIga ModelRemove ModelTransform ModelCad Spec SpecTransform SumZ ProofSpan
  SpecNurbs ProofNet ProofCall ProofNurbs ProofGeom ProofGeom2 ProofTransform ProofCad ProofCircle ProofRevolve ExTac PropNurbs.
Import ListNotations.
Local Open Scope R_scope.

(** ** C49: circles *)
(** The curve runs through the points of the circle at an angle phi(u) that goes strictly from the
    start to the end angle while u runs through [0,1]; all weights are positive. *)
Theorem C49_circle : forall r center ang junk junk2 v start end_, sweeps ang start end_ ->
  start <> end_ -> Rabs (end_ - start) <= 2 * PI ->
  match center with Some p => meant 0 (fun x i => if (i =? 0)%Z then x else 0) p None v | None => forall i, v i = 0 end ->
  exists nrb phi, circle (N:=Rn) sin cos tan sqrt PI junk junk2 r center ang = Ok nrb /\
    (exists a, n_axes nrb = [a] /\ a_deg a = 2%Z /\ forall u, in_domain (x_n (spec_ax a)) (x_p (spec_ax a)) (x_U (spec_ax a)) u <-> 0 <= u <= 1) /\
    positive_weights nrb /\ phi 0 = start /\ phi 1 = end_ /\
    (forall u v, 0 <= u -> u < v -> v <= 1 -> 0 < (end_ - start) * (phi v - phi u)) /\
    shows nrb (fun us c => v c + (if (c =? 0)%Z then r * cos (phi (hd 0 us)) else if (c =? 1)%Z then r * sin (phi (hd 0 us)) else 0)).
Proof. exact circle_sweeps. Qed.
Print Assumptions C49_circle.
Theorem C49_distance : forall r center ang junk junk2 v start end_, sweeps ang start end_ ->
  start <> end_ -> Rabs (end_ - start) <= 2 * PI ->
  match center with Some p => meant 0 (fun x i => if (i =? 0)%Z then x else 0) p None v | None => forall i, v i = 0 end ->
  exists nrb, circle (N:=Rn) sin cos tan sqrt PI junk junk2 r center ang = Ok nrb /\
    forall x j j2 j3 jS, (1 <= v_len x)%Z -> (forall i, (0 <= i < v_len x)%Z -> 0 <= v_get x i <= 1) -> exists C,
      call (N:=Rn) j j2 j3 jS nrb [Some x] FNo = Ok (C, None) /\
      forall i, (0 <= i < v_len x)%Z -> sqrt ((C [i] 0%Z - v 0%Z) * (C [i] 0%Z - v 0%Z) + (C [i] 1%Z - v 1%Z) * (C [i] 1%Z - v 1%Z)) = Rabs r /\ C [i] 2%Z = v 2%Z.
Proof. exact circle_sweeps_distance. Qed.
Print Assumptions C49_distance.
Theorem C49_empty : forall r center ang junk junk2 start, sweeps ang start start ->
  circle (N:=Rn) sin cos tan sqrt PI junk junk2 r center ang = Raise ValueError.
Proof. exact circle_sweeps_empty. Qed.
Print Assumptions C49_empty.
(** A clockwise arc of 200 degrees about the point (2,3,5); an empty sweep. *)
Example C49_example : let ang := AngPair (N:=Rn) (Some 1) (Some (1 - 10 / 9 * PI)) in let p := mkVec (N:=Rn) 3 (fun i => if (i =? 0)%Z then 2 else if (i =? 1)%Z then 3 else 5) in
  sweeps ang 1 (1 - 10 / 9 * PI) /\ 1 <> 1 - 10 / 9 * PI /\ Rabs (1 - 10 / 9 * PI - 1) <= 2 * PI /\
  (exists v, meant 0 (fun x i => if (i =? 0)%Z then x else 0) (Vect p) None v /\ v 2%Z = 5) /\
  sweeps (AngPair (Some (2 * PI)) None) (2 * PI) (2 * PI).
Proof.
  pose proof PI_RGT_0. cbn. split; [auto|]. split; [lra|]. split; [rewrite Rabs_left; lra|]. split; [|split; reflexivity].
  exists (fun i => if (i =? 0)%Z then 2 else if (i =? 1)%Z then 3 else 5). split; [|reflexivity]. split; [lia|]. intros i Hi. three i Hi; reflexivity.
Qed.

(** ** C50: lines and multilinear patches *)
Theorem C50_line : forall junk p0 p1, (match p0 with Vect v => v_len v <= 3 | _ => True end)%Z -> (match p1 with Vect v => v_len v <= 3 | _ => True end)%Z ->
  exists nrb, line (N:=Rn) junk p0 p1 = Ok nrb /\ n_axes nrb = [unit_axis] /\ weight_ok nrb /\
   shows nrb (fun us c => (1 - hd 0 us) * coord p0 c + hd 0 us * coord p1 c).
Proof. exact line_shows. Qed.
Print Assumptions C50_line.
(** Corner arrays with k = 2, 3 Cartesian or 4 homogeneous coordinates per corner. *)
Theorem C50_multilinear : forall junk (P : nd Rn) k, (2 <= k <= 4)%Z ->
  let f := fun us c => if (k =? 4)%Z then interp us (corner 4 (nd_get P) c) / interp us (corner 4 (nd_get P) 3) else interp us (corner k (nd_get P) c) in
  let good := fun d (r : res (nurbs Rn)) => exists nrb, r = Ok nrb /\ n_axes nrb = repeat unit_axis d /\ shows nrb f in
  (nd_shape P = [2; k]%Z -> good 1%nat (linear (N:=Rn) junk (Some P))) /\
  (nd_shape P = [2; 2; k]%Z -> good 2%nat (bilinear (N:=Rn) junk (Some P))) /\
  (nd_shape P = [2; 2; 2; k]%Z -> good 3%nat (trilinear (N:=Rn) junk (Some P))).
Proof. exact multilinear_shows. Qed.
Print Assumptions C50_multilinear.
(** Without corners: the unit square or cube centred at the origin. *)
Theorem C50_default : forall junk,
  let good := fun d (r : res (nurbs Rn)) => exists nrb, r = Ok nrb /\ n_axes nrb = repeat unit_axis d /\
      shows nrb (fun us c => if (c <? Z.of_nat d)%Z then nth (Z.to_nat c) us 0 - 1 / 2 else 0) in
  good 1%nat (linear (N:=Rn) junk None) /\ good 2%nat (bilinear (N:=Rn) junk None) /\ good 3%nat (trilinear (N:=Rn) junk None).
Proof. exact multilinear_default. Qed.
Print Assumptions C50_default.
Example C50_example : interp [1 / 2; 1 / 4] (corner 3 (fun idx => match idx with [i; j; c] => IZR (i * j + c) | _ => 0 end) 1) = 9 / 8.
Proof. cbn. lra. Qed.

(** ** C51: extrusion *)
Theorem C51_extrude : forall nrb d ax junk v f, shows nrb f -> weight_ok nrb -> (1 <= length (n_axes nrb) <= 2)%nat ->
  meant 0 (fun x i => if (i =? 0)%Z then x else 0) d ax v ->
  exists nrb', extrude (N:=Rn) junk nrb d ax = Ok nrb' /\ n_axes nrb' = n_axes nrb ++ [unit_axis] /\
    weight_ok nrb' /\ shows nrb' (fun us c => f (removelast us) c + last us 0 * v c).
Proof. exact extrude_shows. Qed.
Print Assumptions C51_extrude.
(** The rational surface exS of PropNurbs.v, moved along the last coordinate axis. *)
Lemma exS_shows : shows exS (fun us c => pt exS c us).
Proof. apply shows_intro; [exact exS_wf|auto]. Qed.
Lemma exS_weight : weight_ok exS.
Proof. intros us D. apply Rgt_not_eq, weight_pos; auto; [exact exS_wf|exact exS_pos]. Qed.
Example C51_example : (exists f, shows exS f) /\ weight_ok exS /\ (1 <= length (n_axes exS) <= 2)%nat /\
  exists v, meant 0 (fun x i => if (i =? 0)%Z then x else 0) (Scal 7) (Some (-1)%Z) v /\ v 2%Z = 7 /\ v 0%Z = 0.
Proof.
  split; [eexists; exact exS_shows|]. split; [exact exS_weight|]. split; [cbn; lia|]. exists (fun i => if (i =? 2)%Z then 7 else 0). split; [|split; reflexivity].
  split; [lia|]. exists 7. split; [auto|]. intros i Hi. reflexivity.
Qed.

(** ** C53: sweeping *)
Theorem C53_sweep : forall sec tra junk f g, shows sec f -> shows tra g -> weight_ok sec -> weight_ok tra ->
  (1 <= length (n_axes sec) <= 2)%nat -> length (n_axes tra) = 1%nat ->
  (forall idx, in_net (spec_axes sec) idx -> n_weights (N:=Rn) sec idx <> 0) -> (forall idx, in_net (spec_axes tra) idx -> n_weights (N:=Rn) tra idx <> 0) ->
  exists nrb', sweep (N:=Rn) junk sec tra = Ok nrb' /\ n_axes nrb' = n_axes sec ++ n_axes tra /\
    weight_ok nrb' /\ shows nrb' (fun us c => f (removelast us) c + g [last us 0] c).
Proof. exact sweep_shows. Qed.
Print Assumptions C53_sweep.
(** exS swept along a circle. *)
Example C53_example : (exists f, shows exS f) /\ weight_ok exS /\ (forall idx, in_net (spec_axes exS) idx -> n_weights (N:=Rn) exS idx <> 0) /\
  exists tra g, circle (N:=Rn) sin cos tan sqrt PI (fun _ => 77) (fun _ _ => 78) 2 None AngNone = Ok tra /\ shows tra g /\ weight_ok tra /\ length (n_axes tra) = 1%nat /\
    (forall idx, in_net (spec_axes tra) idx -> n_weights (N:=Rn) tra idx <> 0).
Proof.
  split; [eexists; exact exS_shows|]. split; [exact exS_weight|]. split; [intros idx H; apply Rgt_not_eq, exS_pos, H|]. pose proof PI_RGT_0.
  destruct (C49_circle 2 None AngNone (fun _ => 77) (fun _ _ => 78) (fun _ => 0) 0 (2 * PI)) as (tra & phi & E & (a & EA & _) & PW & _ & _ & _ & SH); cbn; auto; [lra|rewrite Rabs_right; lra|].
  exists tra. eexists. split; [exact E|]. split; [exact SH|]. split; [intros us D; apply Rgt_not_eq, weight_pos; auto; apply SH|]. rewrite EA. split; [reflexivity|]. intros idx H0. apply Rgt_not_eq, PW, H0.
Qed.

(** ** C54, C55: revolution *)
(** The point at (u, t) is the point of the input at u, turned about the axis through [pv] by the
    angle phi t, which runs strictly from the start to the end angle. *)
Theorem C54_revolve : forall nrb point ax ang junk junk2 f pv u start end_, sweeps ang start end_ ->
  shows nrb f -> weight_ok nrb -> (1 <= length (n_axes nrb) <= 2)%nat ->
  meant 0 (fun x i => if (i =? 0)%Z then x else 0) point None pv -> axis_meant ax u -> u 2%Z <> -1 ->
  start <> end_ -> Rabs (end_ - start) <= 2 * PI ->
  exists nrb' phi a, revolve (N:=Rn) sin cos tan sqrt acos atan2 hypot PI junk junk2 nrb point ax ang = Ok nrb' /\
    n_axes nrb' = n_axes nrb ++ [a] /\ (forall t, in_domain (x_n (spec_ax a)) (x_p (spec_ax a)) (x_U (spec_ax a)) t <-> 0 <= t <= 1) /\
    phi 0 = start /\ phi 1 = end_ /\ (forall t s, 0 <= t -> t < s -> s <= 1 -> 0 < (end_ - start) * (phi s - phi t)) /\
    weight_ok nrb' /\ shows nrb' (fun us c => pv c + rodrigues u (phi (last us 0)) (fun k => f (removelast us) k - pv k) c).
Proof. exact revolve_sweeps. Qed.
Print Assumptions C54_revolve.
(** exS about the axis (1,2,2) through the point (5,0,0), clockwise by a right angle. *)
Example C54_example : shows exS (fun us c => pt exS c us) /\ weight_ok exS /\ (1 <= length (n_axes exS) <= 2)%nat /\
  (exists pv, meant 0 (fun x i => if (i =? 0)%Z then x else 0) (Scal 5) None pv /\ pv 0%Z = 5) /\
  (exists u, axis_meant (AxVec (mkVec (N:=Rn) 3 (fun i => if (i =? 0)%Z then 1 else 2))) u /\ u 2%Z = 2 / 3 /\ u 2%Z <> -1) /\
  sweeps (AngEnd (N:=Rn) (- (PI / 2))) 0 (- (PI / 2)) /\ 0 <> - (PI / 2) /\ Rabs (- (PI / 2) - 0) <= 2 * PI.
Proof.
  pose proof PI_RGT_0. split; [exact exS_shows|]. split; [exact exS_weight|]. split; [cbn; lia|]. split; [|split].
  - exists (fun i => if (i =? 0)%Z then 5 else 0). split; [|reflexivity]. intros i Hi. reflexivity.
  - exists (fun i => if (i =? 0)%Z then 1 / 3 else 2 / 3). cbn. split; [|lra]. split; [lia|]. exists 3. split; [lra|]. split; [unfold dot3; cbn; lra|]. intros i Hi. three i Hi; cbn; lra.
  - cbn. split; [auto|]. split; [lra|]. rewrite Rabs_left; lra.
Qed.
(** Not every axis is accepted: the one pointing down the z axis raises AssertionError, for every
    object, point and angle. *)
Theorem C55_axis_refuted : exists ax u, axis_meant ax u /\ dot3 u u = 1 /\
  forall nrb point ang junk junk2 pv, (length (n_axes nrb) <= 2)%nat -> meant 0 (fun x i => if (i =? 0)%Z then x else 0) point None pv ->
    revolve (N:=Rn) sin cos tan sqrt acos atan2 hypot PI junk junk2 nrb point ax ang = Raise AssertionError.
Proof.
  exists (AxVec (mkVec (N:=Rn) 3 (fun i => if (i =? 2)%Z then -1 else 0))), (fun i => if (i =? 2)%Z then -1 else 0).
  assert (D : dot3 (fun i => if (i =? 2)%Z then -1 else 0) (fun i => if (i =? 2)%Z then -1 else 0) = 1) by (unfold dot3; cbn; lra).
  assert (A : axis_meant (AxVec (mkVec (N:=Rn) 3 (fun i => if (i =? 2)%Z then -1 else 0))) (fun i => if (i =? 2)%Z then -1 else 0)).
  { split; [cbn; lia|]. exists 1. split; [lra|]. split; [exact D|]. intros i Hi. three i Hi; cbn; lra. }
  split; [exact A|]. split; [exact D|]. intros. eapply revolve_down; eauto.
Qed.
Print Assumptions C55_axis_refuted.
