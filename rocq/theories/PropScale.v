(** C83: the answers do not depend on the unit in which the parameter is measured.
    False: knot values closer than 2^-52 are taken to be equal, whatever the size of the domain
    (igakit/igalib.f90:41 and 549 compare a distance of knots with epsilon, an absolute tolerance), so an object whose whole
    domain is shorter than that is damaged.  The same curve over [0,1] and, with every knot multiplied by
    2^-60, over [0, 2^-60]; the exact arithmetic of the rationals, so nothing is lost to rounding. *)
From Coq Require Import ZArith QArith List Bool.
From Verif Require Import Num Loop ModelBspline ModelBSp ModelNurbs ModelRemove ProofSpan PropRefuted.
Import ListNotations.
Local Open Scope Z_scope.

(** x times 2^-60, in lowest terms. *)
Definition tiny (x : Q) : Q := Qred (x * (1 # 2 ^ 60))%Q.
(** The value of the answer at u; None when the call raised. *)
Definition after (r : res (nurbs Qn)) (us : list Q) : option Q := match r with Ok m => value m us 0 | Raise _ => None end.
Definition arcU : list Q := [0; 0; 0; 1; 1; 1]%Q.
Definition arcP : list Q := [0; 1; 0]%Q.
Definition twoU : list Q := [0; 0; 0; 1 # 2; 1; 1; 1]%Q.
Definition freeU : list Q := [-2; -1; 0; 1; 2; 3]%Q.

(** extract and insert at the middle of the domain *)
Theorem C83_extract_insert_refuted :
  let nrb := crv 3 arcU arcP in let nrb' := crv 3 (map tiny arcU) arcP in let u := (1 # 2)%Q in
  wfQ nrb = true /\ wfQ nrb' = true /\ value nrb [u] 0 = Some (1 # 2)%Q /\ value nrb' [tiny u] 0 = Some (1 # 2)%Q /\
  after (extract (N:=Qn) zj nrb 0 u) [] = Some (1 # 2)%Q /\ after (extract (N:=Qn) zj nrb' 0 (tiny u)) [] = Some 0%Q /\
  after (insert (N:=Qn) zj nrb 0 u (Some 1)) [u] = Some (1 # 2)%Q /\ insert (N:=Qn) zj nrb' 0 (tiny u) (Some 1) = Raise AssertionError.
Proof. repeat split; vm_compute; reflexivity. Qed.
Print Assumptions C83_extract_insert_refuted.

(** elevate *)
Theorem C83_elevate_refuted :
  let nrb := crv 4 twoU [0; 1; 0; 1]%Q in let nrb' := crv 4 (map tiny twoU) [0; 1; 0; 1]%Q in let u := (1 # 4)%Q in
  wfQ nrb = true /\ wfQ nrb' = true /\ value nrb [u] 0 = Some (5 # 8)%Q /\ value nrb' [tiny u] 0 = Some (5 # 8)%Q /\
  after (elevate (N:=Qn) zj (fun _ _ => 0%Q) nrb 0 1) [u] = Some (5 # 8)%Q /\
  after (elevate (N:=Qn) zj (fun _ _ => 0%Q) nrb' 0 1) [tiny u] = Some (3 # 8)%Q.
Proof. repeat split; vm_compute; reflexivity. Qed.
Print Assumptions C83_elevate_refuted.

(** clamp *)
Theorem C83_clamp_refuted :
  let nrb := crv 3 freeU arcP in let nrb' := crv 3 (map tiny freeU) arcP in let u := (1 # 2)%Q in
  wfQ nrb = true /\ wfQ nrb' = true /\ value nrb [u] 0 = Some (3 # 4)%Q /\ value nrb' [tiny u] 0 = Some (3 # 4)%Q /\
  after (clamp (N:=Qn) zj nrb 0 None) [u] = Some (3 # 4)%Q /\ after (clamp (N:=Qn) zj nrb' 0 None) [tiny u] = Some (1 # 2)%Q.
Proof. repeat split; vm_compute; reflexivity. Qed.
Print Assumptions C83_clamp_refuted.
