(** Copies, clones and the array sorted by refine. *)
From Coq Require Import ZArith Reals List Bool Lia Sorted Permutation.
From Verif Require Import Num Loop ModelNurbs ModelRemove ModelDer ModelIo ModelHeap SpecNurbs SpecIo SpecHeap ProofMethods2 ProofHeap ProofHeap2 ProofHeap3 ProofHeap4 ProofHeap5 ProofIo4.
Import ListNotations.
Local Open Scope Z_scope.

Section Any.
Context {N : Num}.
Variables (junk : Z -> N) (junk2 : Z -> Z -> N) (junk3 : Z -> Z -> Z -> N) (junkS : Z -> Z) (nsqrt : N -> N).
Lemma h_copy_frame (s : store N) o : framed s (fun _ => False) (fun _ => False) (fst (h_copy o s)).
Proof.
  pose proof (perform_frame junk junk2 junk3 junkS nsqrt (OpCopy o) s) as F. cbn [perform] in F. unfold ignore, hbind in F. destruct (h_copy o s) as [s' [x|e]]; destruct F as [F1 F2 F3 F4]; constructor; cbn in *; auto; intros; apply F4; auto; discriminate.
Qed.
End Any.
Theorem copy_disjoint (N : Num) (s : store N) o : sound s o ->
  exists s', h_copy o s = (s', Ok (s_nobj s)) /\ sound s' (s_nobj s) /\ value s' (s_nobj s) = value s o /\ NoDup (arrays s' (s_nobj s)) /\
    forall y, sound s y -> sound s' y /\ arrays s' y = arrays s y /\ value s' y = value s y /\ (forall l, In l (arrays s' (s_nobj s)) -> ~ In l (arrays s' y)).
Proof.
  intros So. destruct (copy_spec s o So) as (s' & C1 & C2 & C3 & C4 & C5). exists s'. refine (conj C1 (conj C2 (conj C3 (conj C4 _)))). intros y Sy.
  pose proof (h_copy_frame (fun _ => n0 N) (fun _ _ => n0 N) (fun _ _ _ => n0 N) (fun _ => 0) (fun x => x) s o) as F. rewrite C1 in F. cbn [fst] in F.
  destruct (sound_frame _ _ y _ _ F Sy) as (A & B & C); auto. refine (conj A (conj B (conj C _))). intros l I J. rewrite Forall_forall in C5. specialize (C5 l I). rewrite B in J. destruct Sy as (_ & Sy & _). rewrite Forall_forall in Sy. specialize (Sy l J). unfold exists_array in Sy. lia.
Qed.
Section Any2.
Context {N : Num}.
Variables (junk : Z -> N) (junk2 : Z -> Z -> N) (junk3 : Z -> Z -> Z -> N) (junkS : Z -> Z) (nsqrt : N -> N).
Theorem copy_independent (s : store N) o s' c ps : sound s o -> h_copy o s = (s', Ok c) ->
  ((forall p, In p ps -> self p <> Some o /\ forall l, In l (written p) -> In l (arrays s' c) \/ s_next s' <= l) -> value (run junk junk2 junk3 junkS nsqrt ps s') o = value s o) /\
  ((forall p, In p ps -> self p <> Some c /\ forall l, In l (written p) -> l < s_next s \/ s_next s' <= l) -> value (run junk junk2 junk3 junkS nsqrt ps s') c = value s o).
Proof.
  intros So E. destruct (copy_disjoint N s o So) as (s1 & C1 & C2 & C3 & C4 & C5). rewrite C1 in E. injection E as <- <-. destruct (C5 o So) as (D1 & D2 & D3 & D4). split; intros H.
  - rewrite <- D3. apply others_unchanged; auto. intros p I. destruct (H p I) as [H1 H2]. split; [auto|]. intros l J K. destruct (H2 l J) as [H3|H3]; [exact (D4 l H3 K)|].
    destruct D1 as (_ & D1 & _). rewrite Forall_forall in D1. specialize (D1 l K). unfold exists_array in D1. lia.
  - rewrite <- C3. apply others_unchanged; auto. intros p I. destruct (H p I) as [H1 H2]. split; [auto|]. intros l J K.
    destruct (copy_spec s o So) as (s2 & B1 & _ & _ & _ & B5). rewrite C1 in B1. injection B1 as <-. rewrite Forall_forall in B5. specialize (B5 l K).
    destruct C2 as (_ & C2 & _). rewrite Forall_forall in C2. specialize (C2 l K). unfold exists_array in C2. destruct (H2 l J); lia.
Qed.
Lemma run_refs ps : forall (s : store N) x, 0 <= x < s_nobj s -> (forall p, In p ps -> self p <> Some x) -> s_obj (run junk junk2 junk3 junkS nsqrt ps s) x = s_obj s x.
Proof.
  induction ps as [|p ps IH]; intros s x Hx H; [reflexivity|]. cbn [run]. destruct (perform_frame junk junk2 junk3 junkS nsqrt p s) as [_ F2 _ F4]. rewrite IH; [|lia|intros; apply H; right; auto]. apply F4; [lia|]. apply H; left; auto.
Qed.
Theorem clone_shares (s : store N) o : sound s o ->
  exists s', h_clone o s = (s', Ok (s_nobj s)) /\ sound s' (s_nobj s) /\ arrays s' (s_nobj s) = arrays s o /\ arrays s' o = arrays s o /\ value s' (s_nobj s) = value s o /\
    forall ps, (forall p, In p ps -> self p <> Some o /\ self p <> Some (s_nobj s)) ->
      value (run junk junk2 junk3 junkS nsqrt ps s') (s_nobj s) = value (run junk junk2 junk3 junkS nsqrt ps s') o.
Proof.
  intros So. destruct (clone_spec s o So) as (s' & C1 & C2 & C3 & C4 & C5 & C6 & C7). exists s'.
  assert (Co : s_obj s' o = s_obj s o).
  { unfold h_clone, hbind, refs, new_obj in C1. injection C1 as <-. cbn. destruct So as ((A & B) & _). destruct (Z.eqb_spec o (s_nobj s)); [lia|auto]. }
  split; [auto|]. split; [auto|]. split; [unfold arrays; now rewrite C3|]. split; [unfold arrays; now rewrite Co|]. split; [auto|]. intros ps H.
  unfold value. rewrite !run_refs; [now rewrite C3, Co| | | |]; try (intros p I; apply H; auto).
  - destruct So as ((A & B) & _). lia.
  - destruct So as ((A & B) & _). lia.
Qed.
Theorem methods_do (s : store N) o : sound s o ->
  (forall M, arg_ok s M -> does (h_transform o M) s o (fun nrb => bind (assert (shape_eqb (nd_shape (contents s M)) [4; 4])) (fun _ => Ok (transform nrb (fun i j => nd_get (contents s M) [i; j]))))) /\
  (forall axes, does (h_transpose o axes) s o (fun nrb => transpose nrb axes)) /\
  (forall ax1 ax2, does (h_swap o ax1 ax2) s o (fun nrb => swap nrb ax1 ax2)) /\
  (forall axes, does (h_reverse o axes) s o (fun nrb => reverse nrb axes)) /\
  (forall ax start end_, does (h_remap o ax start end_) s o (fun nrb => remap nrb ax start end_)) /\
  (forall ax v times, does (h_insert junk o ax v times) s o (fun nrb => insert junk nrb ax v times)) /\
  (forall ax v times deviation, does (h_remove junk2 nsqrt o ax v times deviation) s o (fun nrb => remove nsqrt junk2 nrb ax v times deviation)) /\
  (forall ax side, does (h_clamp junk o ax side) s o (fun nrb => clamp junk nrb ax side)) /\
  (forall ax side c, does (h_unclamp junk o ax side c) s o (fun nrb => unclamp junk nrb ax side c)) /\
  (forall ax times, does (h_elevate junk junk2 o ax times) s o (fun nrb => elevate junk junk2 nrb ax times)) /\
  (forall ax x, arg_ok s x -> 0 <= prod (nd_shape (contents s x)) -> (forall l, x = ARef l true -> ~ In l (arrays s o)) ->
     does (h_refine junk o ax x) s o (fun nrb => refine junk nrb ax (map (nd_get (contents s x)) (map (unravel_c (nd_shape (contents s x))) (zseq (Z.to_nat (prod (nd_shape (contents s x)))) 0))))).
Proof.
  intros So. split; [intros; apply transform_does; auto|]. split; [intros; apply transpose_does; auto|]. split; [intros; apply swap_does; auto|]. split; [intros; apply reverse_does; auto|].
  split; [intros; apply remap_does; auto|]. split; [intros; apply insert_does; auto|]. split; [intros; apply remove_does; auto|]. split; [intros; apply clamp_does; auto|]. split; [intros; apply unclamp_does; auto|].
  split; [intros; apply elevate_does; auto|]. intros ax x O P H. rewrite map_map. exact (refine_does junk s o ax x So O P H).
Qed.
Theorem objects_made (s : store N) o : sound s o ->
  (forall ax start end_, makes (h_slice junk o ax start end_) s (slice junk (value s o) ax start end_)) /\
  (forall ax v, makes (h_extract junk o ax v) s (extract junk (value s o) ax v)) /\
  (forall ax side, makes (h_boundary junk o ax side) s (boundary junk (value s o) ax side)).
Proof. intros So. split; [intros; apply slice_makes; auto|]. split; [intros; apply extract_makes; auto|intros; apply boundary_makes; auto]. Qed.
Theorem evaluation_is (s : store N) o args fields : sound s o -> Forall (opt_ok s) args -> opt_ok s fields ->
  (forall flag, snd (h_call junk junk2 junk3 junkS o args fields flag s) =
     call junk junk2 junk3 junkS (value s o) (map (option_map (fun x => nd_vec (contents s x))) args) (match fields with Some x => FArr (contents s x) | None => if flag then FYes else FNo end)) /\
  snd (h_evaluate junk junk2 junk3 junkS o args fields s) =
     evaluate junk junk2 junk3 junkS (value s o) (option_map (contents s) fields) (map (option_map (fun x => nd_vec (contents s x))) args) /\
  (forall order mapped, snd (h_derivative junk junk2 o order args fields mapped s) =
     derivative junk junk2 (value s o) order (option_map (contents s) fields) (map (option_map (fun x => nd_vec (contents s x))) args) mapped).
Proof. intros So A F. split; [intros; apply call_is; auto|]. split; [apply evaluate_is; auto|intros; apply derivative_is; auto]. Qed.
End Any2.

Lemma sorted_strongly l : sorted l -> StronglySorted Rle l.
Proof. induction l as [|x l IH]; intros H; constructor; [apply IH, H|]. apply Forall_forall. apply H. Qed.
Theorem refine_sorts (junk : Z -> R) (s : store Rn) o ax l a : sound s o -> exists_array s l -> py_axis (n_dim (value s o)) ax = Ok a -> Forall (fun n => 0 < n) (nd_shape (s_arr s l)) ->
  let s' := fst (h_refine (N:=Rn) junk o ax (ARef l true) s) in
  nd_shape (s_arr s' l) = nd_shape (s_arr s l) /\ Permutation (map (nd_get (s_arr s' l)) (loops (nd_shape (s_arr s l)))) (map (nd_get (s_arr s l)) (loops (nd_shape (s_arr s l)))) /\
  StronglySorted Rle (map (nd_get (s_arr s' l)) (loops (nd_shape (s_arr s l)))).
Proof.
  intros So Hl Ea Hs. cbv zeta. set (v := s_arr s l). set (u := unflat (N:=Rn) (nd_shape v) (sort (N:=Rn) (flat (N:=Rn) v))).
  assert (Hp : 0 < prod (nd_shape v)) by (unfold v; clear - Hs; induction Hs; cbn; [lia|apply Z.mul_pos_pos; auto]).
  assert (E : s_arr (fst (h_refine (N:=Rn) junk o ax (ARef l true) s)) l = u).
  { unfold h_refine. cbn [asarray contiguous]. unfold hbind at 1. cbn [hret]. unfold hbind at 1. cbn [read]. fold v. destruct (Z.eqb_spec (prod (nd_shape v)) 0); [lia|].
    unfold hbind at 1. cbn [this]. unfold hbind at 1, lift at 1. rewrite Ea. unfold hbind at 1. cbn [hret]. unfold hbind at 1. cbn [write]. fold u.
    match goal with |- s_arr (fst (?m ?s1)) l = u => assert (X : s_arr s1 l = u) by (cbn; now rewrite Z.eqb_refl); assert (F : framed s1 (fun _ => False) (fun x => x = o) (fst (m s1))) end.
    { match goal with |- framed ?s1 _ _ _ => assert (K : forall r, framed s1 (fun _ => False) (fun x => x = o) (fst (rebind o r a s1))) end.
      { intros r. apply (k_rebind _ (fun _ => False) (fun x => x = o)); [auto|apply framed_refl]. }
      unfold hbind at 1. cbn [this]. unfold hbind at 1, lift. destruct (refine _ _ _ _); [apply K|apply framed_refl]. }
    destruct F as [_ _ F _]. rewrite F; [exact X| |auto]. unfold exists_array in Hl. cbn. lia. }
  rewrite E. split; [reflexivity|].
  assert (L : loops (nd_shape v) = map (unravel_c (nd_shape v)) (zseq (Z.to_nat (prod (nd_shape v))) 0)) by (apply loops_eq; exact Hs).
  assert (V : map (nd_get v) (loops (nd_shape v)) = flat (N:=Rn) v) by (rewrite L, map_map; reflexivity).
  assert (Len : length (sort (N:=Rn) (flat (N:=Rn) v)) = Z.to_nat (prod (nd_shape v))).
  { rewrite (Permutation_length (sort_perm _)). unfold flat. rewrite map_length. clear. generalize 0. induction (Z.to_nat (prod (nd_shape v))); intros; cbn; auto. }
  assert (U : map (nd_get u) (loops (nd_shape v)) = sort (N:=Rn) (flat (N:=Rn) v)).
  { rewrite L, map_map. rewrite <- Len. rewrite <- (nth_zseq_all (N:=Rn) (sort (N:=Rn) (flat (N:=Rn) v)) (n0 Rn) 0) at 2. apply map_ext_in. intros k I. apply zseq_in in I. rewrite Len in I.
    cbn [u unflat nd_get]. rewrite ravel_unravel_c by (auto; lia). now rewrite Z.sub_0_r. }
  rewrite U, V. split; [apply sort_perm|]. apply sorted_strongly. exact (sort_sorted _).
Qed.
