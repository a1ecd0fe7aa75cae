(** Refinement, slices, reversal, construction and evaluation on shared arrays. *)
From Coq Require Import ZArith List Bool Lia FunctionalExtensionality.
From Verif Require Import Num Loop ModelNurbs ModelRemove ModelDer ModelIo ModelHeap SpecNurbs SpecIo SpecHeap ProofHeap ProofHeap2 ProofHeap3 ProofIo4.
Import ListNotations.
Local Open Scope Z_scope.

Section More.
Context {N : Num}.
Variables (junk : Z -> N) (junk2 : Z -> Z -> N) (junk3 : Z -> Z -> Z -> N) (junkS : Z -> Z) (nsqrt : N -> N).

Lemma nth_zseq_all (u : list N) d lo : map (fun k => nth (Z.to_nat (k - lo)) u d) (zseq (length u) lo) = u.
Proof.
  revert lo. induction u as [|x u IH]; intros lo; cbn [length zseq map]; [auto|]. f_equal; [now rewrite Z.sub_diag|].
  rewrite <- (IH (lo + 1)) at 2. apply map_ext_in. intros k I.
  assert (lo + 1 <= k) by (clear - I; revert k I; generalize (lo + 1) as z; induction (length u); intros z k I; cbn in I; [contradiction|destruct I as [<-|I]; [lia|apply IHn in I; lia]]).
  replace (Z.to_nat (k - lo)) with (S (Z.to_nat (k - (lo + 1)))) by lia. reflexivity.
Qed.
Lemma flat_unflat (u : list N) : flat (unflat [Z.of_nat (length u)] u) = u.
Proof.
  unfold flat, unflat. cbn [nd_shape nd_get prod fold_right]. rewrite Z.mul_1_r, Nat2Z.id. transitivity (map (fun k => nth (Z.to_nat (k - 0)) u (n0 N)) (zseq (length u) 0)); [|apply nth_zseq_all]. apply map_ext_in. intros k I.
  assert (0 <= k < Z.of_nat (length u)).
  { clear - I. assert (X : forall n lo, In k (zseq n lo) -> lo <= k < lo + Z.of_nat n); [|apply X in I; lia]. induction n; intros lo J; cbn in J; [contradiction|destruct J as [<-|J]; [lia|apply IHn in J; lia]]. }
  rewrite ravel_unravel_c; [now rewrite Z.sub_0_r|constructor; [lia|constructor]|cbn; lia].
Qed.

Theorem refine_spec (s : store N) o ax x : sound s o -> arg_ok s x -> 0 <= prod (nd_shape (contents s x)) ->
  (forall l, x = ARef l true -> ~ In l (arrays s o)) ->
  match refine junk (value s o) ax (flat (contents s x)) with
  | Ok r => exists s', h_refine junk o ax x s = (s', Ok tt) /\ sound s' o /\ value s' o = r /\
              ((snd (s_obj s' o) = snd (s_obj s o)) \/ exists a l, py_axis (n_dim (value s o)) ax = Ok a /\ snd (s_obj s' o) = lset a l (snd (s_obj s o)))
  | Raise e => exists s', h_refine junk o ax x s = (s', Raise e)
  end.
Proof.
  intros So OkX Hp Hx. destruct (asarray_spec s x o So OkX) as (s1 & l & A1 & A2 & A3 & A4 & A5 & A6 & A7 & A8 & A9).
  remember (h_refine junk o ax x s) as m eqn:Em. unfold h_refine in Em. unfold hbind at 1 in Em. rewrite A1 in Em. unfold hbind at 1 in Em. cbn [read] in Em. rewrite A5 in Em. set (v := contents s x) in *.
  destruct (Z.eqb_spec (prod (nd_shape v)) 0) as [E0|E0].
  - unfold flat at 1. rewrite E0. cbn. exists s1. split; [exact Em|]. split; [auto|]. split; [auto|]. left. now rewrite A3.
  - assert (F : exists y ys, flat v = y :: ys) by (unfold flat; destruct (Z.to_nat (prod (nd_shape v))) eqn:EN; [lia|cbn; eauto]).
    destruct F as (y & ys & F). unfold hbind at 1 in Em. cbn [this] in Em. rewrite A4 in Em. unfold hbind at 1, lift at 1 in Em.
    destruct (py_axis (n_dim (value s o)) ax) as [a|e] eqn:Ea.
    2:{ rewrite F. unfold refine. rewrite Ea. cbn. exists s1. exact Em. }
    assert (X : exists s2 lu, (if contiguous x then hret l else alloc v) s1 = (s2, Ok lu) /\ sound s2 o /\ s_obj s2 o = s_obj s o /\ value s2 o = value s o /\ ~ In lu (arrays s2 o)).
    { destruct (contiguous x) eqn:Ec.
      - exists s1, l. refine (conj eq_refl (conj A2 (conj A3 (conj A4 _)))). apply A7; auto. intros (l' & E & I). exact (Hx l' E I).
      - destruct (alloc_sound s1 o v A2) as (B1 & B2 & B3). exists (fst (alloc v s1)), (s_next s1). split; [reflexivity|]. split; [auto|]. split; [congruence|]. split; [congruence|].
        intros I. unfold arrays in I. rewrite B2 in I. destruct A2 as (_ & A2 & _). rewrite Forall_forall in A2. specialize (A2 _ I). unfold exists_array in A2. lia. }
    destruct X as (s2 & lu & C1 & C2 & C3 & C4 & C5). unfold hbind at 1 in Em. rewrite C1 in Em. unfold hbind at 1 in Em.
    destruct (write_sound s2 o lu (unflat (nd_shape v) (sort (flat v))) C2 C5) as (D1 & D2 & D3).
    destruct (write lu (unflat (nd_shape v) (sort (flat v))) s2) as [s3 w] eqn:Ew. cbn [fst] in *. assert (w = Ok tt) as -> by (unfold write in Ew; now injection Ew).
    unfold hbind at 1 in Em. cbn [this] in Em. rewrite D3, C4 in Em. unfold hbind at 1, lift in Em.
    destruct (refine junk (value s o) ax (flat v)) as [r|e] eqn:E; [|eauto].
    assert (EB : exists B, n_axes r = lset a B (n_axes (value s o))).
    { rewrite F in E. unfold refine in E. rewrite Ea in E. cbn [bind] in E. destruct (refine_arg _ _); [|discriminate]. cbn [bind] in E. destruct (check _); [|discriminate]. cbn [bind] in E. destruct (check _); [|discriminate]. cbn [bind] in E. injection E as <-. cbn. eauto. }
    destruct EB as [B EB]. destruct (rebind_spec s3 o r a B D1) as (s' & R1 & R2 & R3); [rewrite D3, C4; eapply axis_lt; exact Ea|rewrite D3, C4; auto|].
    exists s'. split; [rewrite Em; auto|]. split; [auto|]. split; [auto|]. right. exists a. assert (exists l', snd (s_obj s' o) = lset a l' (snd (s_obj s3 o))) as [l' El].
    { clear - R1. unfold rebind, hbind, alloc, refs, bind_refs in R1. injection R1 as <-. cbn. rewrite Z.eqb_refl. cbn. eauto. }
    exists l'. split; [auto|]. rewrite El. f_equal. congruence.
Qed.
Theorem refine_does (s : store N) o ax x : sound s o -> arg_ok s x -> 0 <= prod (nd_shape (contents s x)) -> (forall l, x = ARef l true -> ~ In l (arrays s o)) ->
  does (h_refine junk o ax x) s o (fun nrb => refine junk nrb ax (flat (contents s x))).
Proof. intros. apply does_eq. pose proof (refine_spec s o ax x) as X. destruct (refine _ _ _ _); [destruct X as (s' & X1 & X2 & X3 & _); eauto 10|auto]. Qed.

(** ** New objects *)
Lemma makes_eq (m : H Z) (s : store N) f :
  match f with Ok r => exists s' o', m s = (s', Ok o') /\ s_nobj s <= o' /\ sound s' o' /\ value s' o' = r | Raise e => exists s', m s = (s', Raise e) end -> makes m s f.
Proof. unfold makes. destruct f; auto. intros (s' & o' & E1 & E2 & E3 & E4). exists s', o'. subst. split; [auto|]. split; [auto|]. split; [auto|apply same_refl]. Qed.
Lemma made (s : store N) r ks : 0 <= s_next s -> 0 <= s_nobj s -> Forall (exists_array s) ks -> kvecs s ks = map ax_vec (n_axes r) ->
  exists s', (hbind (alloc (nurbs_array r)) (fun la => new_obj (la, ks))) s = (s', Ok (s_nobj s)) /\ sound s' (s_nobj s) /\ value s' (s_nobj s) = r.
Proof.
  intros H1 H2 F V. unfold hbind, alloc, new_obj. eexists. split; [reflexivity|].
  eapply sound_intro; cbn; [lia|rewrite Z.eqb_refl; reflexivity|unfold exists_array; cbn; lia| |now rewrite Z.eqb_refl|].
  - eapply Forall_impl; [|exact F]. unfold exists_array; cbn; intros; lia.
  - rewrite <- V. unfold kvecs. apply map_ext_in. intros l I. rewrite Forall_forall in F. specialize (F l I). unfold exists_array in F. cbn. destruct (Z.eqb_spec l (s_next s)); [lia|auto].
Qed.
Lemma nobj_pos (s : store N) o : sound s o -> 0 <= s_nobj s.
Proof. intros ([? ?] & _). lia. Qed.
Theorem extract_makes (s : store N) o ax v : sound s o -> makes (h_extract junk o ax v) s (extract junk (value s o) ax v).
Proof.
  intros So. apply makes_eq. destruct (extract junk (value s o) ax v) as [r|e] eqn:E; [|exists s; unfold h_extract, hbind, this, lift; rewrite E; reflexivity].
  pose proof E as E'. unfold extract in E'. destruct (py_axis (n_dim (value s o)) ax) as [a|] eqn:Ea; [|discriminate]. cbn [bind] in E'.
  do 4 (destruct (assert _) in E' || destruct (check _) in E'; [|discriminate]; cbn [bind] in E'). injection E' as E'.
  destruct (made s r (lrem a (snd (s_obj s o)))) as (s' & M1 & M2 & M3); [eapply next_pos; eauto|eapply nobj_pos; eauto|apply Forall_lrem, knots_exist; auto| |].
  - rewrite <- E'. cbn [n_axes]. unfold kvecs. rewrite !map_lrem. f_equal. exact (value_vecs s o So).
  - exists s', (s_nobj s). split; [|split; [lia|auto]]. rewrite <- M1. unfold h_extract, hbind, this, lift. rewrite E, Ea. reflexivity.
Qed.
Theorem boundary_makes (s : store N) o ax side : sound s o -> makes (h_boundary junk o ax side) s (boundary junk (value s o) ax side).
Proof.
  intros So. unfold boundary. destruct (assert _) eqn:EA; cbn [bind]; [|exists s; unfold h_boundary, hbind, this, lift; rewrite EA; reflexivity].
  destruct (py_axis (n_dim (value s o)) ax) as [b|] eqn:Ea; cbn [bind]; [|exists s; unfold h_boundary, hbind, this, lift; rewrite EA, Ea; reflexivity].
  pose proof (extract_makes s o (Z.of_nat b) (if side =? 0 then a_lo (get_axis (value s o) b) else a_hi (get_axis (value s o) b)) So) as X.
  unfold makes in *. replace (h_boundary junk o ax side s) with (h_extract junk o (Z.of_nat b) (if side =? 0 then a_lo (get_axis (value s o) b) else a_hi (get_axis (value s o) b)) s); [exact X|].
  unfold h_boundary. unfold hbind at 1. cbn [this]. unfold hbind at 1, lift at 1. rewrite EA. unfold hbind at 1, lift at 1. rewrite Ea. reflexivity.
Qed.
Theorem clone_spec (s : store N) o : sound s o -> exists s', h_clone o s = (s', Ok (s_nobj s)) /\ sound s' (s_nobj s) /\ s_obj s' (s_nobj s) = s_obj s o /\ value s' (s_nobj s) = value s o /\ (forall l, s_arr s' l = s_arr s l) /\ s_next s' = s_next s /\ s_nobj s' = s_nobj s + 1.
Proof.
  intros So. pose proof (nobj_pos s o So) as Hn. destruct So as (S1 & S2 & S3). unfold h_clone, hbind, refs, new_obj. eexists. split; [reflexivity|].
  unfold sound, value, arrays in *. cbn [s_obj s_nobj s_arr s_next]. rewrite !Z.eqb_refl. split; [split; [lia|]; split; auto|]. auto.
Qed.
Theorem slice_makes (s : store N) o ax start end_ : sound s o -> makes (h_slice junk o ax start end_) s (slice junk (value s o) ax start end_).
Proof.
  intros So. apply makes_eq. destruct (py_axis (n_dim (value s o)) ax) as [a|] eqn:Ea.
  2:{ unfold slice. rewrite Ea. cbn. exists s. unfold h_slice, hbind, this, lift. rewrite Ea. reflexivity. }
  destruct (slice junk (value s o) ax start end_) as [r|e] eqn:E; [|exists s; unfold h_slice, hbind, this, lift; rewrite Ea, E; reflexivity].
  pose proof E as E'. unfold slice in E'. rewrite Ea in E'. cbn [bind] in E'. set (A := get_axis (value s o) a) in *.
  set (u0 := match start with Some x => x | None => a_lo A end) in *. set (u1 := match end_ with Some x => x | None => a_hi A end) in *.
  do 3 (destruct (assert _) in E'; [|discriminate]; cbn [bind] in E').
  destruct (py_FindSpanMult A u0) as [k0|] eqn:E0; [|discriminate]. cbn [bind] in E'. destruct (py_FindSpanMult A u1) as [k1|] eqn:E1; [|discriminate]. cbn [bind] in E'.
  set (u := repeat u0 _ ++ repeat u1 _) in *. destruct (refine junk (value s o) (Z.of_nat a) u) as [r1|] eqn:ER; [|discriminate]. cbn [bind] in E'. injection E' as E'.
  destruct (clone_spec s o So) as (s1 & C1 & C2 & C3 & C4 & C5 & C6 & C7). set (o1 := s_nobj s) in *.
  pose proof (refine_spec s1 o1 (Z.of_nat a) (AVal (unflat [Z.of_nat (length u)] u)) C2 I) as RS. cbn [contents] in RS. rewrite flat_unflat, C4, ER in RS.
  destruct RS as (s2 & R1 & R2 & R3 & R4); [cbn; lia|discriminate|].
  assert (Pa : py_axis (n_dim (value s o)) (Z.of_nat a) = Ok a).
  { pose proof (axis_lt _ _ _ Ea) as La. unfold py_axis, n_dim. destruct (Z.leb_spec (- Z.of_nat (length (n_axes (value s o)))) (Z.of_nat a)); [|lia]. destruct (Z.ltb_spec (Z.of_nat a) (Z.of_nat (length (n_axes (value s o))))); [|lia]. cbn [andb]. destruct (Z.ltb_spec (Z.of_nat a) 0); [lia|]. now rewrite Nat2Z.id. }
  (* the arrays of the result *)
  assert (K : kvecs s2 (snd (s_obj s2 o1)) = map ax_vec (n_axes r1)) by (rewrite <- R3; apply value_vecs; auto).
  assert (L1 : (a < length (n_axes r1))%nat) by (pose proof (f_equal (@length _) K) as K1; unfold kvecs in K1; rewrite !map_length in K1; rewrite <- K1; pose proof (axis_lt _ _ _ Ea) as La; rewrite (value_dim s o So), <- C3 in La; destruct R4 as [-> |(b & l & _ & ->)]; rewrite ?length_lset; auto).
  set (s3 := fst (alloc (nurbs_array r) s2)). set (s4 := fst (alloc (axis_array (get_axis r a)) s3)).
  pose proof (next_pos s2 o1 R2) as N2. pose proof (nobj_pos s2 o1 R2) as N3.
  exists (fst (new_obj (s_next s2, lset a (s_next s2 + 1) (snd (s_obj s2 o1))) s4)), (s_nobj s2).
  split.
  { unfold h_slice. unfold hbind at 1. cbn [this]. unfold hbind at 1, lift at 1. rewrite Ea. unfold hbind at 1, lift at 1. rewrite E. cbv zeta. fold A u0 u1. unfold hbind at 1, lift at 1. rewrite E0. unfold hbind at 1, lift at 1. rewrite E1.
    fold u. unfold hbind at 1. rewrite C1. unfold hbind at 1. rewrite R1. reflexivity. }
  split.
  { assert (s_nobj s1 <= s_nobj s2); [|lia]. pose proof (k_refine junk s1 (fun _ => False) (fun x => x = o1) o1 (Z.of_nat a) (AVal (unflat [Z.of_nat (length u)] u))) as KR.
    specialize (KR ltac:(discriminate) (or_introl eq_refl) s1 (framed_refl _ _ _)). rewrite R1 in KR. destruct KR as [[_ KR _ _] _]. exact KR. }
  eapply sound_intro; cbn; [lia|rewrite Z.eqb_refl; reflexivity|unfold exists_array; cbn; lia| |destruct (Z.eqb_spec (s_next s2) (s_next s2 + 1)); [lia|now rewrite Z.eqb_refl]|].
  - apply Forall_lset; [unfold exists_array; cbn; lia|]. eapply Forall_impl; [|exact (knots_exist s2 o1 R2)]. unfold exists_array; cbn; intros; lia.
  - unfold kvecs. rewrite map_lset. cbn [s_arr]. rewrite Z.eqb_refl. rewrite <- E' at 2. cbn [n_axes]. rewrite map_lset, <- K. unfold kvecs. f_equal.
    + rewrite <- E'. unfold get_axis. cbn [n_axes]. rewrite nth_lset_same by auto. reflexivity.
    + apply map_ext_in. intros l I. pose proof (knots_exist s2 o1 R2) as F. rewrite Forall_forall in F. specialize (F l I). unfold exists_array in F. destruct (Z.eqb_spec l (s_next s2 + 1)); [lia|]. destruct (Z.eqb_spec l (s_next s2)); [lia|auto].
Qed.
End More.
