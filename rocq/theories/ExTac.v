(** Helpers for the non-vacuity examples: knot vectors given as lists. *)
From Coq Require Import ZArith Reals Lia Lra List.
From Verif Require Import Spec.
Import ListNotations.
Local Open Scope R_scope.

Definition arr (l : list R) : Z -> R := fun i => nth (Z.to_nat i) l 0.

Lemma nondecreasing_adjacent U lo hi :
  (forall i, (lo <= i < hi)%Z -> U i <= U (i + 1)%Z) -> nondecreasing U lo hi.
Proof.
  intros H i j Hi Hij Hj.
  replace j with (i + Z.of_nat (Z.to_nat (j - i)))%Z by lia.
  assert (Z.of_nat (Z.to_nat (j - i)) <= hi - i)%Z as Hb by lia.
  revert Hb. generalize (Z.to_nat (j - i)) as d. induction d; intros Hb.
  - replace (i + Z.of_nat 0)%Z with i by lia. lra.
  - assert (U i <= U (i + Z.of_nat d)%Z) by (apply IHd; lia).
    assert (U (i + Z.of_nat d)%Z <= U (i + Z.of_nat d + 1)%Z) by (apply H; lia).
    replace (i + Z.of_nat (S d))%Z with (i + Z.of_nat d + 1)%Z by lia. lra.
Qed.

(** Enumerate an integer in a closed literal range. *)
Ltac enumz i lo hi :=
  let rec go k :=
    lazymatch eval compute in (Z.ltb hi k) with
    | true => exfalso; lia
    | false => let k' := eval compute in (k + 1)%Z in
               destruct (Z.eq_dec i k) as [->|?]; [ | go k' ]
    end in go lo.

Ltac mono_list lo hi :=
  apply nondecreasing_adjacent; let i := fresh "i" in let H := fresh "H" in intros i H;
  enumz i lo hi; cbv [arr nth Z.to_nat Pos.to_nat Pos.iter_op Init.Nat.add Z.add Pos.add Pos.succ]; lra.

Ltac wf_list lo hi :=
  constructor; [ lia | lia | mono_list lo hi | cbv [arr nth Z.to_nat Pos.to_nat Pos.iter_op Init.Nat.add Z.add Pos.add Pos.succ]; lra
               | cbv [arr nth Z.to_nat Pos.to_nat Pos.iter_op Init.Nat.add Z.add Pos.add Pos.succ]; lra ].
Ltac arr_lra := cbv [arr nth Z.to_nat Pos.to_nat Pos.iter_op Init.Nat.add Z.add Pos.add Pos.succ]; lra.

(** The example knot vector used throughout: degree 2, four control points. *)
Definition exU : Z -> R := arr [0;0;0;1;2;2;2].
Lemma exU_wf : wf_knots 3 2 exU.
Proof. unfold exU. wf_list 0%Z 5%Z. Qed.

(** An unclamped one: degree 2, five control points. *)
Definition exV : Z -> R := arr [-2;-1;0;1;2;3;4;5].
Lemma exV_wf : wf_knots 4 2 exV.
Proof. unfold exV. wf_list 0%Z 6%Z. Qed.
