(** C92: mapped derivatives of order two and more. *)
From Coq Require Import ZArith Reals List Lia Lra Bool.
From Verif Require Import Num Loop ModelBspline ModelBSp ModelNurbs ModelDer Spec SpecNurbs SumZ ProofSpan ProofNet ProofCall ProofDerApi ProofStop ExTac PropNurbs PropDer.
Import ListNotations.
Local Open Scope Z_scope.

(** ** C92, false: hessian(mapped=True) and derivative(order, mapped=True) end the process instead of returning or raising *)
(** Not for one object: for every object, every field and all parameters. *)
Theorem C92_mapped_stops : forall nrb xs fields nc F, wf_nurbs nrb -> good_args (spec_axes nrb) xs -> field_of nrb fields nc F ->
  forall junk junk2, hessian (N:=Rn) junk junk2 nrb fields (map Some xs) true = Raise ProcessStop /\
    forall order, 2 <= order <= 4 -> derivative (N:=Rn) junk junk2 nrb order fields (map Some xs) true = Raise ProcessStop.
Proof.
  intros nrb xs fields nc F W G HF junk junk2. destruct (field_of_ok _ _ _ _ HF) as [EF Hnc]. pose proof W as (W1 & W2 & W3).
  assert (HL : length xs = length (n_axes nrb)) by (pose proof (Forall2_len _ _ _ G) as Q; unfold spec_axes in Q; rewrite map_length in Q; auto).
  assert (H : forall order, 2 <= order <= 4 -> der_core (N:=Rn) junk junk2 nrb order fields (map Some xs) true = Raise ProcessStop).
  { intros order Ho. unfold der_core. rewrite (proj2 (eval_args_ok junk (n_axes nrb) xs HL) G). cbn [bind]. rewrite EF. cbn [bind fst].
    destruct (Z.leb_spec 1 order); [|lia]. destruct (Z.leb_spec order 4); [|lia]. destruct (Z.leb_spec 1 nc); [|lia]. cbn [andb assert check bind].
    destruct (forallb _ (n_axes nrb)) eqn:E.
    - cbn [check bind]. destruct (Z.leb_spec 2 order); [reflexivity|lia].
    - exfalso. apply not_true_iff_false in E. apply E. apply forallb_forall. intros A HA. unfold wf_nurbs in W. unfold spec_axes in W2. rewrite Forall_map, Forall_forall in W2.
      destruct (W2 A HA) as [P Wk]. cbn in P, Wk. pose proof (wf_n _ _ _ Wk). apply andb_true_iff. split; apply Z.leb_le; lia. }
  split; [apply H; lia|exact H].
Qed.
Print Assumptions C92_mapped_stops.
(** The rational surface exS. *)
Example C92_example : wf_nurbs exS /\ good_args (spec_axes exS) exArgs /\ exists nc F, field_of exS None nc F.
Proof.
  split; [exact exS_wf|]. split; [exact exArgs_good|]. unfold field_of. destruct exS_wf as [_ [_ Hc]].
  destruct (Z.eqb_spec (n_comp exS) 4) as [E|E]; [exists 3; eexists; left; split; [exact E|split; reflexivity]|].
  exists (n_comp exS - 4). eexists. right. split; [lia|split; reflexivity].
Qed.

Theorem C92_mapped_refuted : exists nrb xs, wf_nurbs nrb /\ good_args (spec_axes nrb) xs /\
  forall junk junk2, hessian (N:=Rn) junk junk2 nrb None (map Some xs) true = Raise ProcessStop.
Proof.
  destruct C92_example as (W & G & nc & F & HF). exists exS, exArgs. split; [exact W|]. split; [exact G|]. intros junk junk2. exact (proj1 (C92_mapped_stops exS exArgs None nc F W G HF junk junk2)).
Qed.
Print Assumptions C92_mapped_refuted.

(** ** Everything else returns or raises, whatever the arguments and the arithmetic *)
Theorem C92_otherwise : forall (N : Num) junk junk2 (nrb : nurbs N) fields args,
  gradient junk junk2 nrb fields args true <> Raise ProcessStop /\ gradient junk junk2 nrb fields args false <> Raise ProcessStop /\
  hessian junk junk2 nrb fields args false <> Raise ProcessStop /\
  forall order, derivative junk junk2 nrb order fields args false <> Raise ProcessStop /\ (order < 2 \/ 4 < order -> derivative junk junk2 nrb order fields args true <> Raise ProcessStop).
Proof. exact @never_stops. Qed.
Print Assumptions C92_otherwise.
