(** Tensor products of polynomial pieces, their partial derivatives, and the quotient rule. *)
From Coq Require Import ZArith Reals List Lia Lra Bool.
From Verif Require Import Spec SumZ BPiece BLink SpecNurbs SpecDer BDer.
Import ListNotations.
Local Open Scope R_scope.

(** Tensor-product sum of the pieces of spans [ss], differentiated [cnt] times. *)
Fixpoint Hd (axs : list axR) (ss : list Z) (cnt : list nat) (P : list Z -> R) (x : list R) : R :=
  match axs, ss, cnt, x with
  | a :: axs', s :: ss', c :: cnt', t :: x' =>
      sumZ (s - x_p a) s (fun i => gder (x_U a) s (x_p a) i c t * Hd axs' ss' cnt' (fun idx => P (i :: idx)) x')
  | _, _, _, _ => P []
  end.

Definition span_good (a : axR) (s : Z) : Prop := (0 <= x_p a)%Z /\ span_ok (x_U a) s (Z.to_nat (x_p a)).

Fixpoint incr (k : nat) (c : list nat) : list nat :=
  match k, c with
  | _, [] => []
  | O, n :: c' => S n :: c'
  | S k', n :: c' => n :: incr k' c'
  end.
Lemma incr_length k : forall c, length (incr k c) = length c.
Proof. induction k; destruct c; simpl; auto. Qed.
Lemma incr_comm j : forall k c, incr j (incr k c) = incr k (incr j c).
Proof. induction j; intros k c; destruct k, c; simpl; auto. f_equal. apply IHj. Qed.
Lemma put_length k t : forall x, length (put k t x) = length x.
Proof. induction k; destruct x; simpl; auto. Qed.

Lemma Hd_ext axs : forall ss cnt P Q x, (forall idx, length idx = length axs -> P idx = Q idx) ->
  length ss = length axs -> length cnt = length axs -> length x = length axs ->
  Hd axs ss cnt P x = Hd axs ss cnt Q x.
Proof.
  induction axs as [|a axs IH]; intros [|s ss] [|c cnt] P Q [|t x] H Hs Hc Hx; try discriminate; cbn [Hd].
  - apply H. reflexivity.
  - apply sumZ_ext. intros i Hi. f_equal. apply IH; auto. intros idx L. apply H. simpl. f_equal. auto.
Qed.

Lemma Hd_partial axs : forall ss cnt P x k, Forall2 span_good axs ss -> length cnt = length axs -> length x = length axs ->
  (k < length axs)%nat -> partial k (Hd axs ss cnt P) x (Hd axs ss (incr k cnt) P x).
Proof.
  induction axs as [|a axs IH]; intros ss cnt P x k F Hc Hx Hk; [simpl in Hk; lia|].
  inversion F as [|? s ? ss' [G1 G2] F']; subst. destruct cnt as [|c cnt]; [discriminate|]. destruct x as [|t x]; [discriminate|].
  simpl in Hc, Hx. unfold partial. destruct k as [|k].
  - cbn [put nth incr Hd]. apply dl_sumZ. intros i Hi.
    eapply dl_ext; [|eapply dl_eq; [|apply (dl_scal (Hd axs ss' cnt (fun idx => P (i :: idx)) x)); apply (gder_derive (x_U a) s (x_p a) i c t); auto]].
    + intros y. cbv beta. ring.
    + ring.
  - cbn [put nth incr Hd]. apply dl_sumZ. intros i Hi. apply dl_scal. apply IH; auto; simpl in Hk; lia.
Qed.

(** Value (no derivatives): the tensor-product spline on the box of the spans. *)
Lemma Hd_value axs : forall ss P x, Forall wf_ax axs ->
  Forall2 (fun a (us : Z * R) => active (x_n a) (x_p a) (x_U a) (snd us) (fst us)) axs (combine ss x) ->
  length ss = length axs -> length x = length axs ->
  Hd axs ss (map (fun _ => O) axs) P x = tsum axs P x.
Proof.
  induction axs as [|a axs IH]; intros [|s ss] P [|t x] W F Hs Hx; try discriminate; cbn [Hd map tsum combine]; auto.
  inversion W as [|? ? [Wp Wk] W']; subst. cbn [combine] in F. inversion F as [|? ? ? ? A F']; subst. cbn [fst snd] in A.
  rewrite (sumZ_restrict 0 (x_n a) (s - x_p a) s).
  - apply sumZ_ext. intros i Hi. rewrite gder_0. rewrite IH by (simpl in *; auto).
    f_equal. symmetry. eapply Nb_piece; eauto. destruct A as [A _]. lia.
  - destruct A as [A _]. lia.
  - destruct A as [A _]. lia.
  - lia.
  - intros i Hi Ho. rewrite (Nb_piece _ _ _ _ s) by auto. rewrite B_zero by lia. ring.
Qed.

(** ** The quotient rule *)

(** Formulas of Rationalize applied to numerator derivatives [A] and denominator derivatives
    [W]; order four is the correct formula. *)
Section Quot.
Variables (A W : list Z -> R).
Definition q0 : R := A [] / W [].
Definition q1 (i : Z) : R := (A [i] - q0 * W [i]) / W [].
Definition q2 (i j : Z) : R := (A [i; j] - q0 * W [i; j] - q1 i * W [j] - q1 j * W [i]) / W [].
Definition q3 (i j k : Z) : R :=
  (A [i; j; k] - q0 * W [i; j; k] - q1 i * W [j; k] - q1 j * W [i; k] - q1 k * W [i; j]
   - q2 j k * W [i] - q2 i k * W [j] - q2 i j * W [k]) / W [].
Definition q4 (i j k l : Z) : R :=
  (A [i; j; k; l] - q0 * W [i; j; k; l]
   - q1 l * W [i; j; k] - q1 k * W [i; j; l] - q2 k l * W [i; j]
   - q1 j * W [i; k; l] - q2 j l * W [i; k] - q2 j k * W [i; l] - q3 j k l * W [i]
   - q1 i * W [j; k; l] - q2 i l * W [j; k] - q2 i k * W [j; l] - q3 i k l * W [j]
   - q2 i j * W [k; l] - q3 i j l * W [k] - q3 i j k * W [l]) / W [].
Definition quot (D : list Z) : R :=
  match D with
  | [] => q0 | [i] => q1 i | [i; j] => q2 i j | [i; j; k] => q3 i j k | [i; j; k; l] => q4 i j k l
  | _ => 0
  end.
End Quot.

(** Partial derivatives at a point [x] in direction [k]. *)
Section Deriv.
Variables (k : nat) (x : list R).
Hypothesis Px : put k (nth k x 0) x = x.

Lemma p_eq f l l' : l = l' -> partial k f x l -> partial k f x l'.
Proof. intros ->; auto. Qed.
Lemma p_minus f g a b : partial k f x a -> partial k g x b -> partial k (fun y => f y - g y) x (a - b).
Proof. unfold partial. intros. apply (dl_minus (fun t => f (put k t x)) (fun t => g (put k t x))); auto. Qed.
Lemma p_mult f g a b : partial k f x a -> partial k g x b -> partial k (fun y => f y * g y) x (a * g x + f x * b).
Proof.
  unfold partial. intros Ha Hb.
  pose proof (dl_mult (fun t => f (put k t x)) (fun t => g (put k t x)) _ _ _ Ha Hb) as H.
  cbv beta in H. rewrite Px in H. exact H.
Qed.
Lemma p_quot f g a b : g x <> 0 -> partial k f x a -> partial k g x b ->
  partial k (fun y => f y / g y) x ((a - f x / g x * b) / g x).
Proof.
  unfold partial. intros Hg Ha Hb.
  pose proof (dl_div (fun t => f (put k t x)) (fun t => g (put k t x)) _ _ _ Ha Hb) as H.
  cbv beta in H. rewrite Px in H. specialize (H Hg). eapply dl_eq; [|exact H]. field. auto.
Qed.

Variables (A W : list Z -> list R -> R).
Variable d : Z.
Hypothesis PA : forall D, partial k (A D) x (A (d :: D) x).
Hypothesis PW : forall D, partial k (W D) x (W (d :: D) x).
Hypothesis W0 : W [] x <> 0.
Definition ev (F : list Z -> list R -> R) (y : list R) : list Z -> R := fun D => F D y.

Lemma q0_partial : partial k (fun y => q0 (ev A y) (ev W y)) x (q1 (ev A x) (ev W x) d).
Proof. unfold q1, q0, ev. apply p_quot; auto. Qed.
Lemma q1_partial i : partial k (fun y => q1 (ev A y) (ev W y) i) x (q2 (ev A x) (ev W x) d i).
Proof.
  eapply p_eq; [|unfold q1; apply (p_quot (fun y => ev A y [i] - q0 (ev A y) (ev W y) * ev W y [i]) (fun y => ev W y [])); auto].
  2:{ apply p_minus; [apply PA|]. apply p_mult; [apply q0_partial | apply PW]. }
  2:{ apply PW. }
  change ((ev A x [i] - q0 (ev A x) (ev W x) * ev W x [i]) / ev W x []) with (q1 (ev A x) (ev W x) i).
  unfold q2. f_equal. unfold ev. ring.
Qed.
Lemma q2_partial i j : partial k (fun y => q2 (ev A y) (ev W y) i j) x (q3 (ev A x) (ev W x) d i j).
Proof.
  eapply p_eq; [|unfold q2; apply (p_quot (fun y => ev A y [i; j] - q0 (ev A y) (ev W y) * ev W y [i; j]
     - q1 (ev A y) (ev W y) i * ev W y [j] - q1 (ev A y) (ev W y) j * ev W y [i]) (fun y => ev W y [])); auto].
  2:{ repeat (first [apply q0_partial | apply q1_partial | apply PA | apply PW | apply p_minus | apply p_mult]). }
  2:{ apply PW. }
  match goal with |- context [(?X / ev W x [] * _)] => change (X / ev W x []) with (q2 (ev A x) (ev W x) i j) end.
  unfold q3. f_equal. unfold ev. ring.
Qed.
Lemma q3_partial i j l : partial k (fun y => q3 (ev A y) (ev W y) i j l) x (q4 (ev A x) (ev W x) d i j l).
Proof.
  eapply p_eq; [|unfold q3; apply (p_quot (fun y => ev A y [i; j; l] - q0 (ev A y) (ev W y) * ev W y [i; j; l]
     - q1 (ev A y) (ev W y) i * ev W y [j; l] - q1 (ev A y) (ev W y) j * ev W y [i; l] - q1 (ev A y) (ev W y) l * ev W y [i; j]
     - q2 (ev A y) (ev W y) j l * ev W y [i] - q2 (ev A y) (ev W y) i l * ev W y [j] - q2 (ev A y) (ev W y) i j * ev W y [l]) (fun y => ev W y [])); auto].
  2:{ repeat (first [apply q0_partial | apply q1_partial | apply q2_partial | apply PA | apply PW | apply p_minus | apply p_mult]). }
  2:{ apply PW. }
  match goal with |- context [(?X / ev W x [] * _)] => change (X / ev W x []) with (q3 (ev A x) (ev W x) i j l) end.
  unfold q4. f_equal. unfold ev. ring.
Qed.

Lemma quot_partial D : (length D < 4)%nat -> partial k (fun y => quot (ev A y) (ev W y) D) x (quot (ev A x) (ev W x) (d :: D)).
Proof.
  intros H. destruct D as [|i [|j [|l [|m D]]]]; simpl in H; try lia; cbn [quot].
  - apply q0_partial.
  - apply q1_partial.
  - apply q2_partial.
  - apply q3_partial.
Qed.
End Deriv.

Lemma put_same k : forall x, (k < length x)%nat -> put k (nth k x 0) x = x.
Proof. induction k; destruct x; simpl; intros; try lia; auto. f_equal. apply IHk. lia. Qed.

(** Derivative counts of a list of (1-based) directions. *)
Fixpoint cnts (dim : nat) (D : list Z) : list nat :=
  match D with [] => repeat O dim | d :: D' => incr (Z.to_nat (d - 1)) (cnts dim D') end.
Lemma cnts_length dim D : length (cnts dim D) = dim.
Proof. induction D; simpl; [apply repeat_length | rewrite incr_length; auto]. Qed.

(** Derivative of the quotient of two piece sums, in the directions [D]. *)
Definition Pd (axs : list axR) (ss : list Z) (P : list Z -> R) (D : list Z) (x : list R) : R := Hd axs ss (cnts (length axs) D) P x.
Definition Qd (axs : list axR) (ss : list Z) (P w : list Z -> R) (D : list nat) (x : list R) : R :=
  quot (ev (Pd axs ss P) x) (ev (Pd axs ss w) x) (map (fun k => Z.of_nat k + 1)%Z (rev D)).

Lemma Qd_partials axs ss P w : Forall2 span_good axs ss -> forall D E,
  (length (E ++ D) <= 4)%nat -> Forall (fun k => (k < length axs)%nat) (E ++ D) ->
  partials (fun x => length x = length axs /\ Pd axs ss w [] x <> 0) D (Qd axs ss P w E) (Qd axs ss P w (E ++ D)).
Proof.
  intros G. induction D as [|k D IH]; intros E HL HF.
  - simpl. intros. rewrite app_nil_r. reflexivity.
  - simpl. exists (Qd axs ss P w (E ++ [k])). split.
    + intros x [Lx Wx]. assert (Hk : (k < length axs)%nat).
      { rewrite Forall_forall in HF. apply HF. apply in_or_app. right. left. reflexivity. }
      unfold Qd. rewrite rev_app_distr. cbn [rev app map].
      apply quot_partial; auto.
      * apply put_same. lia.
      * intros D'. unfold Pd. cbn [cnts]. replace (Z.to_nat (Z.of_nat k + 1 - 1)) with k by lia.
        apply Hd_partial; auto. apply cnts_length.
      * intros D'. unfold Pd. cbn [cnts]. replace (Z.to_nat (Z.of_nat k + 1 - 1)) with k by lia.
        apply Hd_partial; auto. apply cnts_length.
      * rewrite map_length, rev_length. rewrite app_length in HL. simpl in HL. lia.
    + replace (E ++ k :: D) with ((E ++ [k]) ++ D) by (rewrite <- app_assoc; reflexivity).
      apply IH; rewrite <- app_assoc; auto.
Qed.
