(** cad.grid and cad.refine and the arrays of the caller (C93).  A memory [m] maps locations to arrays;
    an argument is an array of the caller or a value; [octs], [ints]: SpecArgs.v. *)
From Coq Require Import ZArith QArith List Bool Lia.
From Verif Require Import Num Loop ModelNurbs ModelIga ModelRemove ModelCad ModelArgs SpecArgs ProofArgs PropRefuted.
Import ListNotations.
Local Open Scope Z_scope.

(** ** C93: refuted *)
(** The array [-1, -1] given as continuity to a grid of degree 2 becomes [1, 1]; given then to a grid of degree 3,
    the second grid has the continuity 1, not the 2 that the same call makes of an array [-1, -1]. *)
Definition g_call (p : Z) : M zarg (nurbs Qn) := h_grid zj (IVal (ZList [2; 2])) (IVal (ZScal p)) (Some (IRef 0)) (LimOne (N:=Qn) 0%Q 1%Q) (WrapOne false).
Definition g_mem : mem zarg := fun _ => ZList [-1; -1].
Definition g_knots (r : res (nurbs Qn)) : list Z := match r with Ok nrb => map a_len (n_axes nrb) | Raise _ => [] end.
Theorem C93_grid_refuted : exists m1, m1 0 = ZList [1; 1] /\ g_mem 0 = ZList [-1; -1] /\
  fst (g_call 2 g_mem) = m1 /\ g_knots (snd (g_call 2 g_mem)) = [7; 7] /\
  g_knots (snd (g_call 3 g_mem)) = [9; 9] /\ g_knots (snd (g_call 3 m1)) = [10; 10].
Proof. exists (fst (g_call 2 g_mem)). split; [vm_compute; reflexivity|]. split; [reflexivity|]. split; [reflexivity|]. split; [|split]; vm_compute; reflexivity. Qed.
Print Assumptions C93_grid_refuted.
(** The array [None] given as degree to the refinement of a quadratic becomes [2]; given then to the
    refinement of a line, it elevates it to degree 2. *)
Definition q_line : nurbs Qn := crv 2 [0; 0; 1; 1]%Q [0; 1]%Q.
Definition q_quad : nurbs Qn := crv 3 [0; 0; 0; 1; 1; 1]%Q [0; 1; 3]%Q.
Definition r_call (nrb : nurbs Qn) : M (list (option fact)) (nurbs Qn) := h_cad_refine zj (fun _ _ => 0%Q) nrb ONone (ORef 0) ONone.
Definition r_deg (r : res (nurbs Qn)) : list Z := match r with Ok nrb => map a_deg (n_axes nrb) | Raise _ => [] end.
Theorem C93_refine_refuted : exists m1, m1 0 = [Some (FacAll 2)] /\ fst (r_call q_quad (fun _ => [None])) = m1 /\
  r_deg (snd (r_call q_quad (fun _ => [None]))) = [2] /\ r_deg (snd (r_call q_line (fun _ => [None]))) = [1] /\ r_deg (snd (r_call q_line m1)) = [2].
Proof. exists (fst (r_call q_quad (fun _ => [None]))). split; [vm_compute; reflexivity|]. split; [reflexivity|]. split; [|split]; vm_compute; reflexivity. Qed.
Print Assumptions C93_refine_refuted.

(** ** What is changed, in any arithmetic *)
(** Only: an array of 32-bit integers without axes given as shape, and one given as continuity with a
    negative entry. *)
Theorem C93_grid_writes : forall (N : Num) (junk : Z -> N) shape degree continuity limits wrap m l,
  fst (h_grid junk shape degree continuity limits wrap m) l <> m l ->
  (shape = IRef l /\ exists k, m l = ZScal k) \/ (continuity = Some (IRef l) /\ exists v k, m l = ZList v /\ In k v /\ k < 0).
Proof. exact @grid_writes. Qed.
Print Assumptions C93_grid_writes.
(** Only: an array of objects with an entry None. *)
Theorem C93_refine_writes : forall (N : Num) (junk : Z -> N) junk2 nrb factor degree continuity m l,
  fst (h_cad_refine junk junk2 nrb factor degree continuity m) l <> m l ->
  (factor = ORef l \/ degree = ORef l \/ continuity = ORef l) /\ In None (m l).
Proof. exact @refine_writes. Qed.
Print Assumptions C93_refine_writes.
(** The result of one call is that for the numbers in the arrays, if different arguments are different
    arrays. *)
Theorem C93_grid_result : forall (N : Num) (junk : Z -> N) shape degree continuity limits wrap m,
  (forall l, shape = IRef l -> continuity <> Some (IRef l)) ->
  snd (h_grid junk shape degree continuity limits wrap m) =
  grid junk (match icontents m shape with ZScal k => [k] | ZList l => l end) (icontents m degree) (octs m continuity) limits wrap.
Proof. exact @grid_result. Qed.
Print Assumptions C93_grid_result.
Theorem C93_refine_result : forall (N : Num) (junk : Z -> N) junk2 nrb factor degree continuity dg ct m,
  (forall l, degree = ORef l -> factor <> ORef l /\ continuity <> ORef l) -> (forall l, factor = ORef l -> continuity <> ORef l) ->
  ints (ocontents m degree) dg -> ints (ocontents m continuity) ct ->
  snd (h_cad_refine junk junk2 nrb factor degree continuity m) = cad_refine junk junk2 nrb (ocontents m factor) dg ct.
Proof. exact @refine_result. Qed.
Print Assumptions C93_refine_result.
(** A sequence among the degrees or the continuities is refused, wherever it stands and whatever else is
    asked for, also if the same array is given twice. *)
Theorem C93_refine_sequence : forall (N : Num) (junk : Z -> N) junk2 nrb factor degree continuity m,
  (exists l f, (ocontents m degree = Some l \/ ocontents m continuity = Some l) /\ In (Some (FacList f)) l) ->
  exists e, snd (h_cad_refine junk junk2 nrb factor degree continuity m) = Raise e.
Proof. exact @refine_sequence'. Qed.
Print Assumptions C93_refine_sequence.
Example C93_sequence_example : ocontents (fun _ => [None; Some (FacList [1; 2])]) (ORef 0) = Some [None; Some (FacList [1; 2])].
Proof. reflexivity. Qed.
Example C93_example : fst (g_call 2 g_mem) 0 <> g_mem 0 /\ fst (r_call q_quad (fun _ => [None])) 0 <> [None] /\
  ints (ocontents (fun _ => [None; Some (FacAll 3)]) (ORef 0)) (Some [None; Some 3]).
Proof. split; [|split]; [vm_compute; discriminate|vm_compute; discriminate|reflexivity]. Qed.
