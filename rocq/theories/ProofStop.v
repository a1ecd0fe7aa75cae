(** Which derivative calls end the process. *)
From Coq Require Import ZArith List Lia Bool.
From Verif Require Import Num Loop ModelBspline ModelBSp ModelNurbs ModelDer.
Import ListNotations.
Local Open Scope Z_scope.

Section S.
Context {N : Num}.
Lemma eval_args_goes junk (axs : list (axis N)) args : eval_args junk axs args <> Raise ProcessStop.
Proof.
  revert args. induction axs as [|A axs IH]; intros args; cbn [eval_args]; [discriminate|]. specialize (IH (tl args)).
  assert (H : match hd None args with None => py_Greville junk (a_deg A) (mkVec (a_len A) (a_knots A)) | Some u => eval_arg A u end <> Raise ProcessStop).
  { destruct (hd None args) as [u|].
    - unfold eval_arg. destruct (v_len u <=? 0); [discriminate|]. destruct (vall _ u); [|discriminate]. cbn [assert bind]. destruct (vall _ u); discriminate.
    - unfold py_Greville. destruct (1 <=? a_deg A); [|discriminate]. cbn [check bind]. destruct (2 * a_deg A + 1 <=? _); discriminate. }
  destruct (match hd None args with None => _ | Some u => _ end) as [x|e]; cbn [bind]; [|intros Q; injection Q as ->; apply H; reflexivity].
  destruct (eval_args junk axs (tl args)); cbn [bind]; [discriminate|intros Q; injection Q as ->; apply IH; reflexivity].
Qed.
Lemma der_fields_goes (nrb : nurbs N) fields : der_fields nrb fields <> Raise ProcessStop.
Proof.
  unfold der_fields. destruct fields as [F|]; [|destruct (n_fields nrb); discriminate]. destruct (shape_eqb _ _); [discriminate|].
  destruct (_ =? _); [|discriminate]. cbn [assert bind]. destruct (shape_eqb _ _); discriminate.
Qed.
Lemma der_core_goes junk junk2 (nrb : nurbs N) order fields args mapped : mapped = false \/ order < 2 \/ 4 < order -> der_core junk junk2 nrb order fields args mapped <> Raise ProcessStop.
Proof.
  intros H. unfold der_core. pose proof (eval_args_goes junk (n_axes nrb) args) as H1. destruct (eval_args junk (n_axes nrb) args) as [xs|]; cbn [bind]; [|intros Q; injection Q as ->; apply H1; reflexivity].
  pose proof (der_fields_goes nrb fields) as H2. destruct (der_fields nrb fields) as [F|]; cbn [bind]; [|intros Q; injection Q as ->; apply H2; reflexivity].
  destruct ((1 <=? order) && (order <=? 4)) eqn:E; [|discriminate]. cbn [assert bind]. apply andb_true_iff in E. destruct E as [E1 E2]. apply Z.leb_le in E1, E2.
  destruct (1 <=? fst F); [|discriminate]. cbn [check bind]. destruct (forallb _ _); [|discriminate]. cbn [check bind].
  replace (mapped && (2 <=? order)) with false; [discriminate|]. destruct mapped; [|reflexivity]. cbn [andb]. symmetry. apply Z.leb_gt. destruct H as [H|H]; [discriminate|lia].
Qed.
Theorem never_stops : forall junk junk2 (nrb : nurbs N) fields args,
  gradient junk junk2 nrb fields args true <> Raise ProcessStop /\ gradient junk junk2 nrb fields args false <> Raise ProcessStop /\
  hessian junk junk2 nrb fields args false <> Raise ProcessStop /\
  forall order, derivative junk junk2 nrb order fields args false <> Raise ProcessStop /\ (order < 2 \/ 4 < order -> derivative junk junk2 nrb order fields args true <> Raise ProcessStop).
Proof.
  intros. unfold gradient, hessian, derivative. split; [apply der_core_goes; lia|]. split; [apply der_core_goes; auto|]. split; [apply der_core_goes; auto|].
  intros order. split; [apply der_core_goes; auto|]. intros H. apply der_core_goes. auto.
Qed.
End S.
