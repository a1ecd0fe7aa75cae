(** Numeric operations used by the model.

    The source computes with [real(kind=8)] (igakit/igalib.f90, every routine).
    The model is written once, over a record of operations without any law, and is
    instantiated twice: with the real numbers (for the theorems; exact arithmetic,
    rounding is not modelled) and with the rationals (executable). *)
From Coq Require Import ZArith QArith Reals Bool Lra Lia.

(** Operations on scalars.  [neps] is Fortran's [epsilon(uu)] for kind=8
    (igakit/igalib.f90:41, 486, 549, 1092), i.e. 2^-52. *)
Record Num := mkNum {
  T :> Type;
  n0 : T;
  n1 : T;
  nadd : T -> T -> T;
  nsub : T -> T -> T;
  nmul : T -> T -> T;
  ndiv : T -> T -> T;
  nleb : T -> T -> bool;
  nltb : T -> T -> bool;
  neqb : T -> T -> bool;
  neps : T;
  nofZ : Z -> T
}.

(** Fortran's [abs] (igakit/igalib.f90:41, 486, 549). *)
Definition nabs (N : Num) (x : N) : N :=
  if nltb N x (n0 N) then nsub N (n0 N) x else x.

(** Decidable comparisons on the reals, as booleans. *)
Definition Rleb (x y : R) : bool := if Rle_dec x y then true else false.
Definition Rltb (x y : R) : bool := if Rlt_dec x y then true else false.
Definition Reqb (x y : R) : bool := if Req_EM_T x y then true else false.

(** The instance the theorems are about: exact real arithmetic. *)
Definition Rn : Num :=
  mkNum R 0%R 1%R Rplus Rminus Rmult Rdiv Rleb Rltb Reqb
        (/ 4503599627370496)%R IZR.
Canonical Rn.

(** The executable instance: rationals kept in lowest terms. *)
Definition Qn : Num :=
  mkNum Q 0%Q 1%Q (fun x y => Qred (x + y)) (fun x y => Qred (x - y))
        (fun x y => Qred (x * y)) (fun x y => Qred (x / y))
        Qle_bool (fun x y => negb (Qle_bool y x)) Qeq_bool
        (1 # 4503599627370496)%Q inject_Z.
Canonical Qn.

Lemma Rleb_true x y : Rleb x y = true <-> (x <= y)%R.
Proof. unfold Rleb; destruct (Rle_dec x y); split; intros; try discriminate; auto; lra. Qed.
Lemma Rleb_false x y : Rleb x y = false <-> (y < x)%R.
Proof. unfold Rleb; destruct (Rle_dec x y); split; intros; try discriminate; auto; lra. Qed.
Lemma Rltb_true x y : Rltb x y = true <-> (x < y)%R.
Proof. unfold Rltb; destruct (Rlt_dec x y); split; intros; try discriminate; auto; lra. Qed.
Lemma Rltb_false x y : Rltb x y = false <-> (y <= x)%R.
Proof. unfold Rltb; destruct (Rlt_dec x y); split; intros; try discriminate; auto; lra. Qed.
Lemma Reqb_true x y : Reqb x y = true <-> x = y.
Proof. unfold Reqb; destruct (Req_EM_T x y); split; intros; try discriminate; auto; contradiction. Qed.
Lemma Reqb_false x y : Reqb x y = false <-> x <> y.
Proof. unfold Reqb; destruct (Req_EM_T x y); split; intros; try discriminate; auto; contradiction. Qed.

Definition eps : R := (/ 4503599627370496)%R.
Lemma eps_pos : (0 < eps)%R.
Proof. unfold eps; lra. Qed.

Lemma nabs_R x : nabs Rn x = Rabs x.
Proof.
  unfold nabs; cbn. unfold Rabs. destruct (Rltb x 0) eqn:E.
  - apply Rltb_true in E. destruct (Rcase_abs x); lra.
  - apply Rltb_false in E. destruct (Rcase_abs x); lra.
Qed.

(** Reduce the operations of [Rn] to those of the standard library. *)
Ltac rn := cbn [T n0 n1 nadd nsub nmul ndiv nleb nltb neqb neps nofZ Rn] in *; try rewrite !nabs_R in *.
Ltac rngoal := cbn [T n0 n1 nadd nsub nmul ndiv nleb nltb neqb neps nofZ Rn].
