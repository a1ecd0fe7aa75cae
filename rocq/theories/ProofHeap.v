(** What the calls leave alone. *)
From Coq Require Import ZArith List Bool Lia FunctionalExtensionality.
From Verif Require Import Num Loop ModelNurbs ModelRemove ModelDer ModelIo ModelHeap SpecIo SpecHeap.
Import ListNotations.
Local Open Scope Z_scope.

Section Frame.
Context {N : Num}.
Variables (junk : Z -> N) (junk2 : Z -> Z -> N) (junk3 : Z -> Z -> Z -> N) (junkS : Z -> Z) (nsqrt : N -> N).

(** From [s0], only the arrays [W] and new ones, only the objects [T] and new ones are changed. *)
Record framed (s0 : store N) (W T : Z -> Prop) (s : store N) : Prop := mkFramed {
  f_next : s_next s0 <= s_next s;
  f_nobj : s_nobj s0 <= s_nobj s;
  f_arr : forall l, l < s_next s0 -> ~ W l -> s_arr s l = s_arr s0 l;
  f_obj : forall o, o < s_nobj s0 -> ~ T o -> s_obj s o = s_obj s0 o
}.
Definition keeps (s0 : store N) (W T : Z -> Prop) {A : Type} (m : H A) (Q : A -> Prop) : Prop :=
  forall s, framed s0 W T s -> framed s0 W T (fst (m s)) /\ forall a, snd (m s) = Ok a -> Q a.
Definition any {A : Type} (_ : A) : Prop := True.
Section Rules.
Variables (s0 : store N) (W T : Z -> Prop).
Notation K := (keeps s0 W T).
Lemma k_bind {A B : Type} (m : H A) (k : A -> H B) Q Q' : K m Q -> (forall a, Q a -> K (k a) Q') -> K (hbind m k) Q'.
Proof.
  intros Hm Hk s F. unfold hbind. destruct (Hm s F) as [F1 H1]. destruct (m s) as [s' [a|e]] eqn:E; cbn [fst snd] in *.
  - apply Hk; auto.
  - split; [auto|discriminate].
Qed.
Lemma k_seq {A B : Type} (m : H A) (k : A -> H B) Q' : K m any -> (forall a, K (k a) Q') -> K (hbind m k) Q'.
Proof. intros H1 H2. eapply k_bind; eauto. Qed.
Lemma k_ret {A : Type} (a : A) (Q : A -> Prop) : Q a -> K (hret a) Q.
Proof. intros q s F. split; [exact F|]. cbn. intros b E. injection E as <-. exact q. Qed.
Lemma k_ret_any {A : Type} (a : A) : K (hret a) any.
Proof. apply k_ret. exact I. Qed.
Lemma k_lift {A : Type} (r : res A) : K (lift r) any.
Proof. intros s F. split; [exact F|]. intros; exact I. Qed.
Lemma k_read l : K (read l) any.
Proof. intros s F. split; [exact F|]. intros; exact I. Qed.
Lemma k_refs o : K (refs o) any.
Proof. intros s F. split; [exact F|]. intros; exact I. Qed.
Lemma k_this o : K (this o) any.
Proof. intros s F. split; [exact F|]. intros; exact I. Qed.
Lemma k_alloc a : K (alloc a) (fun l => s_next s0 <= l).
Proof.
  intros s F. destruct F as [F1 F2 F3 F4]. cbn. split.
  - constructor; cbn; auto; [lia|]. intros l Hl Hw. destruct (Z.eqb_spec l (s_next s)); [lia|auto].
  - intros l E. injection E as <-. lia.
Qed.
Lemma k_alloc_any a : K (alloc a) any.
Proof. intros s F. destruct (k_alloc a s F). split; [auto|intros; exact I]. Qed.
Lemma k_write l a : W l \/ s_next s0 <= l -> K (write l a) any.
Proof.
  intros Hl s F. destruct F as [F1 F2 F3 F4]. cbn. split; [|intros; exact I]. constructor; cbn; auto.
  intros l' Hl' Hw. destruct (Z.eqb_spec l' l); [subst; destruct Hl; [contradiction|lia]|auto].
Qed.
Lemma k_bind_refs o r : T o \/ s_nobj s0 <= o -> K (bind_refs o r) any.
Proof.
  intros Ho s F. destruct F as [F1 F2 F3 F4]. cbn. split; [|intros; exact I]. constructor; cbn; auto.
  intros o' Ho' Ht. destruct (Z.eqb_spec o' o); [subst; destruct Ho; [contradiction|lia]|auto].
Qed.
Lemma k_new r : K (new_obj r) (fun o => s_nobj s0 <= o).
Proof.
  intros s F. destruct F as [F1 F2 F3 F4]. cbn. split.
  - constructor; cbn; auto; [lia|]. intros o Ho Ht. destruct (Z.eqb_spec o (s_nobj s)); [lia|auto].
  - intros o E. injection E as <-. lia.
Qed.
Lemma k_new_any r : K (new_obj r) any.
Proof. intros s F. destruct (k_new r s F). split; [auto|intros; exact I]. Qed.
Lemma k_weaken {A : Type} (m : H A) Q : K m Q -> K m any.
Proof. intros H s F. destruct (H s F). split; [auto|intros; exact I]. Qed.
Lemma k_mapH {A B : Type} (f : A -> H B) l : (forall x, In x l -> K (f x) any) -> K (mapH f l) any.
Proof.
  induction l; intros H; [apply k_ret_any|]. cbn [mapH]. apply k_seq; [apply H; left; auto|]. intros b. apply k_seq; [apply IHl; intros; apply H; right; auto|]. intros. apply k_ret_any.
Qed.
Lemma k_if {A : Type} (b : bool) (m m' : H A) Q : K m Q -> K m' Q -> K (if b then m else m') Q.
Proof. destruct b; auto. Qed.
Lemma k_asarray x : K (asarray x) any.
Proof. destruct x; [apply k_ret_any|apply k_alloc_any]. Qed.
Lemma k_asarray_opt x : K (asarray_opt x) any.
Proof. destruct x; [|apply k_ret_any]. apply k_seq; [apply k_asarray|]. intros. apply k_seq; [apply k_read|]. intros. apply k_ret_any. Qed.
Lemma k_inplace l f : W l \/ s_next s0 <= l -> K (inplace l f) any.
Proof. intros. apply k_seq; [apply k_read|]. intros. apply k_write; auto. Qed.
Lemma k_ignore {A : Type} (m : H A) : K m any -> K (ignore m) any.
Proof. intros. apply k_seq; auto. intros. apply k_ret_any. Qed.
Ltac kstep := match goal with
  | |- keeps _ _ _ (hbind (alloc _) _) _ => eapply k_bind; [apply k_alloc|intros]
  | |- keeps _ _ _ (hbind _ _) _ => apply k_seq; [|intros]
  | |- keeps _ _ _ (if _ then _ else _) _ => apply k_if
  | |- keeps _ _ _ (hret _) _ => apply k_ret_any
  | |- keeps _ _ _ (lift _) _ => apply k_lift
  | |- keeps _ _ _ (read _) _ => apply k_read
  | |- keeps _ _ _ (refs _) _ => apply k_refs
  | |- keeps _ _ _ (this _) _ => apply k_this
  | |- keeps _ _ _ (alloc _) _ => apply k_alloc_any
  | |- keeps _ _ _ (new_obj _) _ => apply k_new_any
  | |- keeps _ _ _ (asarray _) _ => apply k_asarray
  | |- keeps _ _ _ (asarray_opt _) _ => apply k_asarray_opt
  | |- keeps _ _ _ (inplace _ _) _ => apply k_inplace
  | |- keeps _ _ _ (write _ _) _ => apply k_write
  | |- keeps _ _ _ (bind_refs _ _) _ => apply k_bind_refs
  | |- keeps _ _ _ (mapH _ _) _ => apply k_mapH; intros
  | |- keeps _ _ _ (ignore _) _ => apply k_ignore
  end.
Lemma k_rebind o r a : T o \/ s_nobj s0 <= o -> K (rebind o r a) any.
Proof. intros. unfold rebind. repeat kstep. auto. Qed.
Lemma k_reverse_knots axes : forall nrb lks, K (h_reverse_knots nrb axes lks) any.
Proof. induction axes; intros; cbn [h_reverse_knots]; [apply k_ret_any|]. eapply k_bind; [apply k_alloc|]. intros. apply IHaxes. Qed.
Lemma k_refine o ax v : (forall l, v = ARef l true -> W l \/ s_next s0 <= l) -> T o \/ s_nobj s0 <= o -> K (h_refine junk o ax v) any.
Proof.
  intros Hv Ho. unfold h_refine.
  apply (k_bind _ _ (fun lv => contiguous v = true -> W lv \/ s_next s0 <= lv)).
  { destruct v as [l c|a]; cbn [asarray contiguous]; [apply k_ret; intros ->; auto|]. intros s F. destruct (k_alloc a s F) as [F1 F2]. split; [auto|]. intros l E _. right. apply F2; auto. }
  intros lv Hlv. apply k_seq; [apply k_read|]. intros u. apply k_if; [apply k_ret_any|]. do 2 (apply k_seq; [first [apply k_this|apply k_lift]|intros ?]).
  apply (k_bind _ _ (fun l => W l \/ s_next s0 <= l)).
  { destruct (contiguous v); [apply k_ret; auto|]. intros s F. destruct (k_alloc u s F) as [F1 F2]. split; [auto|]. intros l E. right. apply F2; auto. }
  intros lu Hlu. repeat kstep; auto. apply k_rebind; auto.
Qed.
Lemma k_perform p : (forall o, self p = Some o -> T o \/ s_nobj s0 <= o) -> (forall l, In l (written p) -> W l \/ s_next s0 <= l) -> K (perform junk junk2 junk3 junkS nsqrt p) any.
Proof.
  intros Ho Hl. destruct p; cbn [perform self written] in *; try specialize (Ho _ eq_refl).
  - unfold h_init. repeat kstep; try (destruct control; repeat kstep; fail).
    all: repeat match goal with |- keeps _ _ _ (match ?x with _ => _ end) _ => destruct x end; repeat kstep.
  - unfold h_copy. repeat kstep.
  - unfold h_clone. repeat kstep.
  - unfold h_transform. repeat kstep; auto.
  - unfold h_transpose. repeat kstep; auto.
  - unfold h_swap. repeat kstep; auto.
  - unfold h_reverse. repeat kstep; auto. apply k_reverse_knots.
  - unfold h_remap. cbv zeta. repeat kstep; auto.
  - unfold h_insert. repeat kstep; auto. apply k_rebind; auto.
  - unfold h_remove. cbv zeta. repeat kstep; auto. apply k_rebind; auto.
  - unfold h_clamp. repeat kstep. apply k_rebind; auto.
  - unfold h_unclamp. repeat kstep. apply k_rebind; auto.
  - apply k_refine; auto. intros l ->. apply Hl. left. reflexivity.
  - unfold h_elevate. repeat kstep. apply k_rebind; auto.
  - unfold h_slice. cbv zeta. apply k_ignore. do 5 (apply k_seq; [first [apply k_this|apply k_lift]|intros ?]). eapply k_bind; [unfold h_clone; apply k_seq; [apply k_refs|intros; apply k_new]|]. intros o' Ho'. cbn beta in Ho'.
    apply k_seq; [apply k_refine; [discriminate|auto]|]. intros. repeat kstep.
  - unfold h_extract. repeat kstep.
  - unfold h_boundary, h_extract. cbv zeta. repeat kstep.
  - unfold h_call. repeat kstep.
  - unfold h_evaluate. repeat kstep.
  - unfold h_derivative. repeat kstep.
  - repeat kstep. apply Hl. left; auto.
Qed.
End Rules.

Lemma framed_refl s W T : framed s W T s.
Proof. constructor; auto; lia. Qed.
Lemma perform_frame p s : framed s (fun l => In l (written p)) (fun o => self p = Some o) (fst (perform junk junk2 junk3 junkS nsqrt p s)).
Proof. apply (k_perform s (fun l => In l (written p)) (fun o => self p = Some o)); auto. apply framed_refl. Qed.
Lemma arrays_same (s s' : store N) y : s_obj s' y = s_obj s y -> (forall l, In l (arrays s y) -> s_arr s' l = s_arr s l) -> value s' y = value s y.
Proof.
  intros E1 E2. unfold value. rewrite E1. unfold arrays in E2. rewrite E2 by (left; auto). f_equal. apply map_ext_in. intros l I. apply E2. right; auto.
Qed.
Lemma sound_frame (s s' : store N) y W T : framed s W T s' -> sound s y -> ~ T y -> (forall l, In l (arrays s y) -> ~ W l) ->
  sound s' y /\ arrays s' y = arrays s y /\ value s' y = value s y.
Proof.
  intros [F1 F2 F3 F4] (S1 & S2 & S3) HT HW. assert (E : s_obj s' y = s_obj s y) by (apply F4; [lia|auto]).
  rewrite Forall_forall in S2. assert (EA : forall l, In l (arrays s y) -> s_arr s' l = s_arr s l) by (intros l I; specialize (S2 l I); apply F3; [unfold exists_array in S2; lia|auto]).
  split; [|split; [unfold arrays; rewrite E; reflexivity|apply arrays_same; auto]].
  split; [lia|]. unfold arrays in *. rewrite E. split; [apply Forall_forall; intros l I; specialize (S2 l I); unfold exists_array in *; lia|]. rewrite EA by (left; auto). exact S3.
Qed.
Theorem others_unchanged ps : forall s y, sound s y ->
  (forall p, In p ps -> self p <> Some y /\ forall l, In l (written p) -> ~ In l (arrays s y)) ->
  let s' := run junk junk2 junk3 junkS nsqrt ps s in sound s' y /\ arrays s' y = arrays s y /\ value s' y = value s y.
Proof.
  induction ps as [|p ps IH]; intros s y Sy H; [cbn; auto|]. cbn [run]. cbv zeta.
  destruct (H p (or_introl eq_refl)) as [H1 H2].
  destruct (sound_frame s _ y _ _ (perform_frame p s) Sy H1) as (S1 & A1 & V1); [intros l I J; exact (H2 l J I)|].
  destruct (IH _ y S1) as (S2 & A2 & V2).
  - intros q I. rewrite A1. apply H; right; auto.
  - split; [exact S2|]. split; [rewrite A2; exact A1|rewrite V2; exact V1].
Qed.
(** One call: only the arrays named by [written] change. *)
Theorem arrays_unchanged p s l : exists_array s l -> ~ In l (written p) -> s_arr (fst (perform junk junk2 junk3 junkS nsqrt p s)) l = s_arr s l.
Proof. intros E1 E2. apply (f_arr _ _ _ _ (perform_frame p s)); [unfold exists_array in E1; lia|auto]. Qed.
End Frame.
