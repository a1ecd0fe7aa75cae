(** The other methods on shared arrays, and the constructors. *)
From Coq Require Import ZArith List Bool Lia FunctionalExtensionality.
From Verif Require Import Num Loop ModelNurbs ModelRemove ModelDer ModelIo ModelHeap SpecNurbs SpecIo SpecHeap ProofHeap ProofHeap2 ProofIo4.
Import ListNotations.
Local Open Scope Z_scope.

Section More.
Context {N : Num}.
Variables (junk : Z -> N) (junk2 : Z -> Z -> N) (junk3 : Z -> Z -> Z -> N) (junkS : Z -> Z) (nsqrt : N -> N).
Ltac inv_res := repeat match goal with
  | H : bind ?x _ = Ok _ |- _ => let E := fresh "E" in destruct x eqn:E; cbn [bind] in H; [|discriminate]
  | H : (if ?b then _ else _) = Ok _ |- _ => let E := fresh "E" in destruct b eqn:E
  | H : (let '(_, _) := ?p in _) = Ok _ |- _ => destruct p
  | H : match ?o with Some _ => _ | None => _ end = Ok _ |- _ => let E := fresh "E" in destruct o eqn:E; try discriminate
  | H : Raise _ = Ok _ |- _ => discriminate
  | H : Ok _ = Ok _ |- _ => injection H as H
  end.

(** ** Allocation leaves the object alone *)
Lemma alloc_sound (s : store N) o a : sound s o -> sound (fst (alloc a s)) o /\ s_obj (fst (alloc a s)) o = s_obj s o /\ value (fst (alloc a s)) o = value s o.
Proof.
  intros So. assert (F : framed s (fun _ => False) (fun _ => False) (fst (alloc a s))) by (apply (k_alloc_any s (fun _ => False) (fun _ => False)); apply framed_refl).
  destruct (sound_frame _ _ o _ _ F So) as (A & B & C); auto.
Qed.
Lemma write_sound (s : store N) o l a : sound s o -> ~ In l (arrays s o) -> sound (fst (write l a s)) o /\ s_obj (fst (write l a s)) o = s_obj s o /\ value (fst (write l a s)) o = value s o.
Proof.
  intros So Hl. assert (F : framed s (fun x => x = l) (fun _ => False) (fst (write l a s))) by (apply (k_write s (fun x => x = l) (fun _ => False)); [auto|apply framed_refl]).
  destruct (sound_frame _ _ o _ _ F So) as (A & B & C); auto. intros x I E. subst. auto.
Qed.
Lemma asarray_spec (s : store N) x o : sound s o -> arg_ok s x ->
  exists s' l, asarray x s = (s', Ok l) /\ sound s' o /\ s_obj s' o = s_obj s o /\ value s' o = value s o /\ s_arr s' l = contents s x /\
    exists_array s' l /\ (contiguous x = true -> ~ (exists l, x = ARef l true /\ In l (arrays s o)) -> ~ In l (arrays s' o)) /\ (forall y, exists_array s y -> s_arr s' y = s_arr s y) /\ s_next s <= s_next s'.
Proof.
  intros So Ok_. destruct x as [l c|a]; cbn [asarray contents contiguous].
  - exists s, l. refine (conj eq_refl (conj So (conj eq_refl (conj eq_refl (conj eq_refl (conj Ok_ (conj _ (conj _ _)))))))); [|auto|lia]. intros -> H I. apply H. eauto.
  - destruct (alloc_sound s o a So) as (A1 & A2 & A3). exists (fst (alloc a s)), (s_next s). refine (conj eq_refl (conj A1 (conj A2 (conj A3 _)))). cbn [fst alloc s_arr s_next].
    pose proof (next_pos s o So). split; [now rewrite Z.eqb_refl|]. split; [unfold exists_array; cbn; lia|]. split; [|split; [|lia]].
    + intros _ _ I. destruct So as (S1 & S2 & _). rewrite Forall_forall in S2. unfold arrays in I. cbn [s_obj] in I. specialize (S2 _ I). unfold exists_array in S2. lia.
    + intros y Hy. unfold exists_array in Hy. destruct (Z.eqb_spec y (s_next s)); [lia|auto].
Qed.

(** ** A new control array, the knots permuted or kept *)
Lemma rebound (s : store N) o r ks : sound s o -> Forall (exists_array s) ks -> kvecs s ks = map ax_vec (n_axes r) ->
  exists s', (hbind (alloc (nurbs_array r)) (fun la => bind_refs o (la, ks))) s = (s', Ok tt) /\ sound s' o /\ value s' o = r.
Proof.
  intros So F V. unfold hbind, alloc, bind_refs. eexists. split; [reflexivity|]. pose proof (next_pos s o So). destruct So as (S1 & S2 & S3).
  eapply sound_intro; cbn; [exact S1|rewrite Z.eqb_refl; reflexivity|unfold exists_array; cbn; lia| |now rewrite Z.eqb_refl|].
  - eapply Forall_impl; [|exact F]. unfold exists_array; cbn; intros; lia.
  - rewrite <- V. unfold kvecs. apply map_ext_in. intros l I. rewrite Forall_forall in F. specialize (F l I). unfold exists_array in F. cbn. destruct (Z.eqb_spec l (s_next s)); [lia|auto].
Qed.
Lemma knots_exist (s : store N) o : sound s o -> Forall (exists_array s) (snd (s_obj s o)).
Proof. intros (_ & F & _). inversion F; auto. Qed.
Lemma array_exists (s : store N) o : sound s o -> exists_array s (fst (s_obj s o)).
Proof. intros (_ & F & _). inversion F; auto. Qed.

Theorem swap_does (s : store N) o ax1 ax2 : sound s o -> does (h_swap o ax1 ax2) s o (fun nrb => swap nrb ax1 ax2).
Proof.
  intros So. apply does_eq. destruct (swap (value s o) ax1 ax2) as [r|e] eqn:E; [|unfold h_swap, hbind, this, lift; rewrite E; eauto].
  pose proof E as E'. unfold swap in E'. destruct (py_axis (n_dim (value s o)) ax1) as [i|] eqn:Ei; [|discriminate]. cbn [bind] in E'. destruct (py_axis (n_dim (value s o)) ax2) as [j|] eqn:Ej; [|discriminate]. cbn [bind] in E'. injection E' as E'.
  pose proof (axis_lt _ _ _ Ei) as Li. pose proof (axis_lt _ _ _ Ej) as Lj. rewrite (value_dim s o So) in Li, Lj.
  destruct (rebound s o r (lswap i j 0 (snd (s_obj s o))) So) as (s' & E1 & E2).
  - pose proof (knots_exist s o So) as F. unfold lswap. rewrite Forall_forall in F. repeat apply Forall_lset; try (apply F; apply nth_In; auto). apply Forall_forall; auto.
  - rewrite <- E'. cbn [n_axes]. unfold lswap, kvecs. rewrite !map_lset. pose proof (value_vecs s o So) as V. unfold kvecs in V. rewrite V.
    assert (X : forall i, (i < length (snd (s_obj s o)))%nat -> nd_vec (s_arr s (nth i (snd (s_obj s o)) 0)) = ax_vec (nth i (n_axes (value s o)) axis0)).
    { intros k Hk. rewrite <- (map_nth ax_vec). rewrite <- (value_vecs s o So). unfold kvecs. rewrite (nth_indep _ _ (nd_vec (s_arr s 0))) by (now rewrite map_length). now rewrite (map_nth (fun l => nd_vec (s_arr s l))). }
    rewrite !X by auto. reflexivity.
  - exists s', tt. split; [|exact E2]. rewrite <- E1. unfold h_swap, hbind, this, lift. rewrite E, Ei, Ej. reflexivity.
Qed.
Theorem transpose_does (s : store N) o axes : sound s o -> does (h_transpose o axes) s o (fun nrb => transpose nrb axes).
Proof.
  intros So. apply does_eq. destruct (transpose (value s o) axes) as [r|e] eqn:E; [|unfold h_transpose, hbind, this, lift; rewrite E; eauto].
  set (l := match axes with None => rev (zseq (length (n_axes (value s o))) 0) | Some l => l end).
  set (d := n_dim (value s o)). set (norm := map (fun a => if a <? 0 then a + (d + 1) else a) l).
  set (pick := fun a => Z.to_nat (if a <? 0 then a + d else a)).
  assert (E' : forallb (fun a => (- d <=? a) && (a <? d)) l = true /\ 
     r = mkNurbs (zip_axes (map (fun a => a_size (nth (Z.to_nat a) (n_axes (value s o)) axis0)) norm) (map (fun a => ax_vec (nth (pick a) (n_axes (value s o)) axis0)) l)) (n_comp (value s o)) (fun idx c => n_arr (value s o) (unpermute norm idx) c)).
  { unfold transpose in E. fold d in E.
    assert (X : forall l', l' = l -> (let norm := map (fun a => if a <? 0 then a + (d + 1) else a) l' in
       if negb (forallb (fun a => (0 <=? a) && (a <=? d)) norm) then Raise ValueError else if negb (nodupb (norm ++ [d])) then Raise ValueError else
       if negb (forallb (fun a => (- d <=? a) && (a <? d)) l') then Raise IndexError else
       let sizes := map (fun a => a_size (nth (Z.to_nat a) (n_axes (value s o)) axis0)) norm in
       let knots := map (fun a => let A := nth (Z.to_nat (if a <? 0 then a + d else a)) (n_axes (value s o)) axis0 in mkVec (a_len A) (a_knots A)) l' in
       Ok (mkNurbs (zip_axes sizes knots) (n_comp (value s o)) (fun idx c => n_arr (value s o) (unpermute norm idx) c))) = Ok r ->
       forallb (fun a => (- d <=? a) && (a <? d)) l = true /\ 
     r = mkNurbs (zip_axes (map (fun a => a_size (nth (Z.to_nat a) (n_axes (value s o)) axis0)) norm) (map (fun a => ax_vec (nth (pick a) (n_axes (value s o)) axis0)) l)) (n_comp (value s o)) (fun idx c => n_arr (value s o) (unpermute norm idx) c)).
    { intros l' -> X. cbv zeta in X. fold norm in X. destruct (negb (forallb _ norm)); [discriminate|]. destruct (negb (nodupb _)); [discriminate|]. destruct (forallb _ l) eqn:B; [|discriminate]. cbn [negb] in X. split; [auto|]. injection X as <-. reflexivity. }
    destruct axes as [l'|]; cbn [bind] in E; [|apply (X l eq_refl); exact E]. destruct (assert _); [|discriminate]. cbn [bind] in E. apply (X l' eq_refl). exact E. }
  destruct E' as [B Er]. rewrite forallb_forall in B.
  assert (P : forall a, In a l -> (pick a < length (snd (s_obj s o)))%nat).
  { intros a I. specialize (B a I). apply andb_true_iff in B as [B1 B2]. apply Z.leb_le in B1. apply Z.ltb_lt in B2. rewrite <- (value_dim s o So). unfold pick, d, n_dim in *. destruct (Z.ltb_spec a 0); lia. }
  destruct (rebound s o r (map (fun a => nth (pick a) (snd (s_obj s o)) 0) l) So) as (s' & E1 & E2).
  - apply Forall_forall. intros x I. apply in_map_iff in I as (a & <- & I). pose proof (knots_exist s o So) as F. rewrite Forall_forall in F. apply F. apply nth_In. auto.
  - rewrite Er. cbn [n_axes]. rewrite zip_vecs by (unfold norm; now rewrite !map_length). unfold kvecs. rewrite map_map. apply map_ext_in. intros a I.
    rewrite <- (map_nth ax_vec). rewrite <- (value_vecs s o So). unfold kvecs. rewrite (nth_indep _ _ (nd_vec (s_arr s 0))) by (rewrite map_length; auto). now rewrite (map_nth (fun l => nd_vec (s_arr s l))).
  - exists s', tt. split; [|exact E2]. rewrite <- E1. unfold h_transpose, hbind, this, lift. rewrite E. reflexivity.
Qed.
Theorem transform_does (s : store N) o M : sound s o -> arg_ok s M ->
  does (h_transform o M) s o (fun nrb => bind (assert (shape_eqb (nd_shape (contents s M)) [4; 4])) (fun _ => Ok (transform nrb (fun i j => nd_get (contents s M) [i; j])))).
Proof.
  intros So OkM. apply does_eq. destruct (asarray_spec s M o So OkM) as (s1 & l & A1 & A2 & A3 & A4 & A5 & _).
  destruct (assert _) eqn:EA; cbn [bind]; [|exists s1; unfold h_transform, hbind, read, lift; rewrite A1, A5, EA; reflexivity].
  unfold h_transform, hbind, read, lift, this, refs. rewrite A1, A5, EA, A4.
  set (r := transform _ _). unfold hbind, alloc, write, bind_refs. cbn [fst snd]. eexists. exists tt. split; [reflexivity|]. pose proof (next_pos s1 o A2). pose proof A2 as (S1 & S2 & S3).
  eapply sound_intro; cbn; [exact S1|rewrite Z.eqb_refl; reflexivity|unfold exists_array; cbn; lia| |now rewrite Z.eqb_refl|].
  - eapply Forall_impl; [|exact (knots_exist s1 o A2)]. unfold exists_array; cbn; intros; lia.
  - transitivity (map ax_vec (n_axes (value s1 o))); [|rewrite A4; reflexivity]. rewrite <- (value_vecs s1 o A2). unfold kvecs. apply map_ext_in. intros x I. cbn. pose proof (knots_exist s1 o A2) as F. rewrite Forall_forall in F. specialize (F x I). unfold exists_array in F. destruct (Z.eqb_spec x (s_next s1)); [lia|auto].
Qed.
Theorem remap_does (s : store N) o ax start end_ : sound s o -> does (h_remap o ax start end_) s o (fun nrb => remap nrb ax start end_).
Proof.
  intros So. apply does_eq. unfold remap. destruct (py_axis (n_dim (value s o)) ax) as [a|e] eqn:Ea; cbn [bind]; [|exists s; unfold h_remap, hbind, this, lift; rewrite Ea; reflexivity].
  cbv zeta. set (A := get_axis (value s o) a). destruct (neqb N (a_lo A) _ && _) eqn:E1; [exists s, tt; unfold h_remap, hbind, this, lift; rewrite Ea; fold A; rewrite E1; auto|].
  destruct (assert _) eqn:EA; cbn [bind]; [|exists s; unfold h_remap, hbind, this, lift; rewrite Ea; fold A; rewrite E1, EA; reflexivity].
  unfold h_remap, hbind, this, lift. rewrite Ea. fold A. rewrite E1, EA.
  set (c := match start with Some c => c | None => a_lo A end). set (d := match end_ with Some d => d | None => a_hi A end).
  pose proof (axis_lt _ _ _ Ea) as La. pose proof (next_pos s o So) as Hn. pose proof So as (S1 & S2 & S3).
  unfold inplace, hbind, alloc, read, write, bind_refs, refs. cbn [fst snd s_arr s_obj s_next s_nobj nd_shape nd_get]. eexists. exists tt. split; [reflexivity|].
  rewrite !Z.eqb_refl. cbn [nd_shape nd_get].
  set (U := s_arr s (nth a (snd (s_obj s o)) 0)). set (l := s_next s).
  match goal with |- sound ?s' o /\ _ => set (s1 := s') end.
  assert (Harr : forall x, exists_array s x -> s_arr s1 x = s_arr s x).
  { intros x Hx. unfold exists_array in Hx. cbn. destruct (Z.eqb_spec x l) as [->|]; [unfold l in *; lia|auto]. }
  assert (Hl : nd_vec (s_arr s1 l) = mkVec (a_len A) (fun i => nadd N (nmul N (nsub N (a_knots A i) (a_lo A)) (ndiv N (nsub N d c) (nsub N (a_hi A) (a_lo A)))) c)).
  { cbn [s1 s_arr]. rewrite Z.eqb_refl. unfold nd_vec. cbn [nd_shape nd_get]. 
    assert (X : nd_vec U = ax_vec A).
    { unfold A, get_axis. rewrite <- (map_nth ax_vec). rewrite <- (value_vecs s o So). unfold kvecs. rewrite (value_dim s o So) in La. rewrite (nth_indep _ _ (nd_vec (s_arr s 0))) by (rewrite map_length; auto). now rewrite (map_nth (fun l => nd_vec (s_arr s l))). }
    unfold nd_vec, ax_vec in X. injection X as X1 X2. rewrite X1. f_equal. apply functional_extensionality. intros i. now rewrite <- (equal_f X2 i). }
  assert (Ho : s_obj s1 o = (fst (s_obj s o), lset a l (snd (s_obj s o)))) by (cbn; now rewrite Z.eqb_refl).
  assert (Hk : forall x, exists_array s x -> exists_array s1 x) by (unfold exists_array; cbn; intros; lia).
  split.
  - split; [exact S1|]. unfold arrays. rewrite Ho. cbn [fst snd]. split.
    + constructor; [apply Hk, array_exists; auto|]. apply Forall_lset; [unfold exists_array; cbn; unfold l; lia|]. eapply Forall_impl; [|exact (knots_exist s o So)]. auto.
    + rewrite Harr by (apply array_exists; auto). rewrite length_lset. exact S3.
  - unfold value at 1. rewrite Ho. cbn [fst snd]. rewrite Harr by (apply array_exists; auto). unfold held. cbn [n_comp n_arr value]. f_equal.
    rewrite map_map, map_lset, Hl. set (B := mkAxis _ _ _).
    replace (map (fun x => nd_vec (s_arr s1 x)) (snd (s_obj s o))) with (map ax_vec (n_axes (value s o))).
    2:{ rewrite <- (value_vecs s o So). unfold kvecs. apply map_ext_in. intros x I. rewrite Harr; [auto|]. pose proof (knots_exist s o So) as F. rewrite Forall_forall in F. auto. }
    change (mkVec (a_len A) _) with (ax_vec B). rewrite <- map_lset. 
    replace (removelast (nd_shape (s_arr s (fst (s_obj s o))))) with (map a_size (lset a B (n_axes (value s o)))); [apply zip_rebuild|].
    rewrite (value_shape s o So), removelast_app1. unfold n_shape. rewrite map_lset. cbn [a_size B]. unfold A, get_axis. rewrite <- (map_nth a_size). apply lset_self.
Qed.
End More.
