(** The methods on shared arrays do to an object what ModelNurbs.v says. *)
From Coq Require Import ZArith List Bool Lia FunctionalExtensionality.
From Verif Require Import Num Loop ModelNurbs ModelRemove ModelDer ModelIo ModelHeap SpecNurbs SpecIo SpecHeap ProofHeap ProofIo4.
Import ListNotations.
Local Open Scope Z_scope.

Section Lists.
Context {A B : Type}.
Lemma map_lset (f : A -> B) a x l : map f (lset a x l) = lset a (f x) (map f l).
Proof. revert a; induction l; intros [|a']; cbn; auto. now rewrite IHl. Qed.
Lemma map_lrem (f : A -> B) a l : map f (lrem a l) = lrem a (map f l).
Proof. revert a; induction l; intros [|a']; cbn; auto. now rewrite IHl. Qed.
Lemma Forall_lset (P : A -> Prop) a x l : P x -> Forall P l -> Forall P (lset a x l).
Proof. intros Hx. revert a; induction l; intros [|a'] F; cbn; auto; inversion F; subst; constructor; auto. Qed.
Lemma Forall_lrem (P : A -> Prop) a l : Forall P l -> Forall P (lrem a l).
Proof. revert a; induction l; intros [|a'] F; cbn; auto; inversion F; subst; auto; constructor; auto. Qed.
Lemma length_lset a (x : A) l : length (lset a x l) = length l.
Proof. revert a; induction l; intros [|a']; cbn; auto. Qed.
Lemma lset_lset a (x y : A) l : lset a x (lset a y l) = lset a x l.
Proof. revert a; induction l; intros [|a']; cbn; auto. now rewrite IHl. Qed.
Lemma nth_lset_same a (x d : A) l : (a < length l)%nat -> nth a (lset a x l) d = x.
Proof. revert a; induction l; intros [|a'] H; cbn in *; try lia; auto; apply IHl; lia. Qed.
Lemma nth_lset_other a b (x d : A) l : a <> b -> nth b (lset a x l) d = nth b l d.
Proof. revert a b; induction l; intros [|a'] [|b'] H; cbn; auto; try congruence; apply IHl; lia. Qed.
Lemma lset_self a (d : A) l : lset a (nth a l d) l = l.
Proof. revert a; induction l; intros [|a']; cbn; auto. now rewrite IHl. Qed.
End Lists.

Section Refine.
Context {N : Num}.
Variables (junk : Z -> N) (junk2 : Z -> Z -> N) (junk3 : Z -> Z -> Z -> N) (junkS : Z -> Z) (nsqrt : N -> N).

Definition ax_vec (A : axis N) : vec N := mkVec (a_len A) (a_knots A).
Lemma zip_rebuild (l : list (axis N)) : zip_axes (map a_size l) (map ax_vec l) = l.
Proof. induction l as [|[? ? ?] l IH]; cbn; auto. now rewrite IH. Qed.
Lemma zip_vecs sh : forall V : list (vec N), length sh = length V -> map ax_vec (zip_axes sh V) = V.
Proof. induction sh; intros [|[? ?] V] H; cbn in *; auto; try discriminate. unfold ax_vec at 1. cbn. rewrite IHsh; auto. Qed.
Lemma zip_sizes sh : forall V : list (vec N), length sh = length V -> map a_size (zip_axes sh V) = sh.
Proof. induction sh; intros [|[? ?] V] H; cbn in *; auto; try discriminate. rewrite IHsh; auto. Qed.
Lemma zip_length sh : forall V : list (vec N), length sh = length V -> length (zip_axes sh V) = length V.
Proof. induction sh; intros [|[? ?] V] H; cbn in *; auto; try discriminate. Qed.
Lemma removelast_len {A} (l : list A) n : length l = S n -> length (removelast l) = n.
Proof. revert n; induction l as [|x [|y l] IH]; intros n H; cbn in *; try lia. destruct n; [lia|]. f_equal. apply IH. lia. Qed.
Lemma removelast_app1 {A} (l : list A) x : removelast (l ++ [x]) = l.
Proof. rewrite removelast_app by discriminate. cbn. now rewrite app_nil_r. Qed.
Lemma last_app1 {A} (l : list A) x d : last (l ++ [x]) d = x.
Proof. induction l as [|y [|z l] IH]; cbn in *; auto. Qed.
Lemma split_last {A} (l : list A) n d : length l = S n -> removelast l ++ [last l d] = l.
Proof. intros H. symmetry. apply app_removelast_last. destruct l; cbn in H; [lia|discriminate]. Qed.

(** The knots of an object, read from the store. *)
Definition kvecs (s : store N) (ks : list Z) : list (vec N) := map (fun l => nd_vec (s_arr s l)) ks.
Lemma value_vecs (s : store N) o : sound s o -> kvecs s (snd (s_obj s o)) = map ax_vec (n_axes (value s o)).
Proof.
  intros (_ & _ & L). unfold value, held. cbn [n_axes]. rewrite zip_vecs; [unfold kvecs; now rewrite map_map|]. rewrite !map_length. apply removelast_len; auto.
Qed.
Lemma value_dim (s : store N) o : sound s o -> length (n_axes (value s o)) = length (snd (s_obj s o)).
Proof. intros S. pose proof (f_equal (@length _) (value_vecs s o S)) as E. unfold kvecs in E. rewrite !map_length in E. auto. Qed.
Lemma value_shape (s : store N) o : sound s o -> nd_shape (s_arr s (fst (s_obj s o))) = n_shape (value s o) ++ [n_comp (value s o)].
Proof.
  intros (S1 & S2 & L). unfold n_shape, value, held. cbn [n_axes n_comp]. rewrite zip_sizes; [|rewrite !map_length; apply removelast_len; auto].
  symmetry. eapply split_last; eauto.
Qed.
(** Two arrays that hold the object [r]. *)
Lemma holds (A : nd N) (ks : list (nd N)) (r : nurbs N) : A = nurbs_array r -> map nd_vec ks = map ax_vec (n_axes r) -> held A ks = r.
Proof.
  intros -> E. unfold held, nurbs_array. cbn [nd_shape nd_get]. rewrite removelast_app1, last_app1, E. unfold n_shape. rewrite zip_rebuild. destruct r as [ax nc f]; cbn. f_equal.
  apply functional_extensionality; intros idx. apply functional_extensionality; intros c. now rewrite removelast_app1, last_app1.
Qed.
Lemma held_shape (r : nurbs N) : length (nd_shape (nurbs_array r)) = S (length (n_axes r)).
Proof. unfold nurbs_array, n_shape. cbn. rewrite app_length, map_length. cbn. lia. Qed.
Lemma sound_intro (s : store N) o la ks r : 0 <= o < s_nobj s -> s_obj s o = (la, ks) -> exists_array s la -> Forall (exists_array s) ks ->
  s_arr s la = nurbs_array r -> kvecs s ks = map ax_vec (n_axes r) -> sound s o /\ value s o = r.
Proof.
  intros H1 H2 H3 H4 H5 H6. assert (L : length ks = length (n_axes r)) by (apply (f_equal (@length _)) in H6; unfold kvecs in H6; rewrite !map_length in H6; auto).
  split.
  - split; [auto|]. unfold arrays. rewrite H2. cbn [fst snd]. split; [constructor; auto|]. rewrite H5, held_shape. auto.
  - unfold value. rewrite H2. cbn [fst snd]. apply holds; auto. rewrite map_map. exact H6.
Qed.
Lemma kvecs_alloc (s : store N) a ks : Forall (exists_array s) ks -> kvecs (fst (alloc a s)) ks = kvecs s ks.
Proof. intros F. unfold kvecs. apply map_ext_in. intros l I. rewrite Forall_forall in F. specialize (F l I). unfold exists_array in F. cbn. destruct (Z.eqb_spec l (s_next s)); [lia|auto]. Qed.
Lemma next_pos (s : store N) (o : Z) : @sound N s o -> 0 <= s_next s.
Proof. intros (_ & F & _). inversion F; subst. unfold exists_array in *. lia. Qed.

Lemma same_refl (r : nurbs N) : same_object r r.
Proof. split; [|auto]. unfold same_axes. induction (n_axes r); constructor; auto. unfold same_axis. auto. Qed.

Lemma rebind_spec (s : store N) o r a B : sound s o -> (a < length (n_axes (value s o)))%nat -> n_axes r = lset a B (n_axes (value s o)) ->
  exists s', rebind o r a s = (s', Ok tt) /\ sound s' o /\ value s' o = r.
Proof.
  intros So La E. unfold rebind, hbind, alloc, refs, bind_refs. cbn [fst snd]. eexists. split; [reflexivity|].
  pose proof (next_pos s o So) as Hn. pose proof (value_vecs s o So) as V. pose proof So as (S1 & S2 & S3). inversion S2 as [|x y P1 P2]; subst.
  eapply sound_intro; cbn.
  - exact S1.
  - rewrite Z.eqb_refl. reflexivity.
  - unfold exists_array; cbn; lia.
  - apply Forall_lset; [unfold exists_array; cbn; lia|]. eapply Forall_impl; [|exact P2]. unfold exists_array; cbn; intros; lia.
  - destruct (Z.eqb_spec (s_next s) (s_next s + 1)); [lia|]. now rewrite Z.eqb_refl.
  - unfold kvecs. rewrite map_lset. cbn [s_arr]. rewrite Z.eqb_refl. rewrite E, map_lset. rewrite <- V. unfold kvecs. f_equal.
    + unfold get_axis. rewrite E, nth_lset_same by auto. unfold nd_vec, axis_array, ax_vec. reflexivity.
    + apply map_ext_in. intros l I. rewrite Forall_forall in P2. specialize (P2 l I). unfold exists_array in P2. destruct (Z.eqb_spec l (s_next s + 1)); [lia|]. destruct (Z.eqb_spec l (s_next s)); [lia|auto].
Qed.
Lemma axis_lt d ax a : py_axis (Z.of_nat d) ax = Ok a -> (a < d)%nat.
Proof. unfold py_axis. destruct (_ && _) eqn:E; [|discriminate]. intros [= <-]. apply andb_true_iff in E as [E1 E2]. apply Z.leb_le in E1. apply Z.ltb_lt in E2. destruct (Z.ltb_spec ax 0); lia. Qed.

(** The shape of the results of the methods that work along one axis. *)
Definition one_axis (nrb : nurbs N) (ax : Z) (f : res (nurbs N)) : Prop :=
  forall r, f = Ok r -> exists a, py_axis (n_dim nrb) ax = Ok a /\ exists B, n_axes r = lset a B (n_axes nrb).
Ltac inv_res := repeat match goal with
  | H : bind ?x _ = Ok _ |- _ => let E := fresh "E" in destruct x eqn:E; cbn [bind] in H; [|discriminate]
  | H : (if ?b then _ else _) = Ok _ |- _ => let E := fresh "E" in destruct b eqn:E
  | H : (let '(_, _) := ?p in _) = Ok _ |- _ => destruct p
  | H : match ?o with Some _ => _ | None => _ end = Ok _ |- _ => let E := fresh "E" in destruct o eqn:E; try discriminate
  | H : Raise _ = Ok _ |- _ => discriminate
  | H : Ok _ = Ok _ |- _ => injection H as H
  end.
Lemma kept (nrb : nurbs N) a : exists B, n_axes nrb = lset a B (n_axes nrb).
Proof. exists (nth a (n_axes nrb) axis0). symmetry. apply lset_self. Qed.
Lemma insert_one nrb ax v times : one_axis nrb ax (insert junk nrb ax v times).
Proof. intros r H. unfold insert in H. inv_res; subst; eexists; (split; [reflexivity|]); first [apply kept|eexists; reflexivity]. Qed.
Lemma remove_one nrb ax v times dev : one_axis nrb ax (remove nsqrt junk2 nrb ax v times dev).
Proof. intros r H. unfold remove in H. inv_res; subst; eexists; (split; [reflexivity|]); first [apply kept|eexists; reflexivity]. Qed.
Lemma clamp_one nrb ax side : one_axis nrb ax (clamp junk nrb ax side).
Proof. intros r H. unfold clamp in H. inv_res; subst; eexists; (split; [reflexivity|]); first [apply kept|eexists; reflexivity]. Qed.
Lemma unclamp_one nrb ax side c : one_axis nrb ax (unclamp junk nrb ax side c).
Proof. intros r H. unfold unclamp in H. inv_res; subst; eexists; (split; [reflexivity|]); first [apply kept|eexists; reflexivity]. Qed.

Lemma does_eq {A} (m : H A) (s : store N) o (f : nurbs N -> res (nurbs N)) :
  match f (value s o) with Ok r => exists s' x, m s = (s', Ok x) /\ sound s' o /\ value s' o = r | Raise e => exists s', m s = (s', Raise e) end -> does m s o f.
Proof. unfold does. destruct (f (value s o)); auto. intros (s' & x & E1 & E2 & E3). exists s', x. subst. split; [auto|]. split; [auto|apply same_refl]. Qed.
Lemma rebind_does (s : store N) o r a B : sound s o -> py_axis (n_dim (value s o)) a = Ok B -> (exists C, n_axes r = lset B C (n_axes (value s o))) ->
  exists s' x, rebind o r B s = (s', Ok x) /\ sound s' o /\ value s' o = r.
Proof. intros So Ea [C EC]. destruct (rebind_spec s o r B C So) as (s' & E1 & E2); [eapply axis_lt; exact Ea|auto|]. exists s', tt. auto. Qed.

Theorem insert_does (s : store N) o ax v times : sound s o -> does (h_insert junk o ax v times) s o (fun nrb => insert junk nrb ax v times).
Proof.
  intros So. apply does_eq. unfold h_insert, hbind, this, lift. destruct (insert junk (value s o) ax v times) as [r|e] eqn:E; [|eauto].
  destruct (insert_one _ _ _ _ r E) as (a & Ea & B). rewrite Ea.
  destruct (Z.eqb_spec (a_len (get_axis r a)) (a_len (get_axis (value s o) a))) as [L|L].
  - exists s, tt. split; [reflexivity|]. split; [auto|]. unfold insert in E. rewrite Ea in E. cbn [bind] in E. inv_res; subst; auto;
      unfold get_axis in L; cbn [n_axes] in L; rewrite nth_lset_same in L by (eapply axis_lt; exact Ea); cbn [a_len] in L; match goal with HH : (_ =? 0) = false |- _ => apply Z.eqb_neq in HH; fold (get_axis (value s o) a) in L; lia end.
  - eapply rebind_does; eauto.
Qed.
Theorem remove_does (s : store N) o ax v times dev : sound s o -> does (h_remove junk2 nsqrt o ax v times dev) s o (fun nrb => remove nsqrt junk2 nrb ax v times dev).
Proof.
  intros So. apply does_eq. unfold h_remove, hbind, this, lift. destruct (remove nsqrt junk2 (value s o) ax v times dev) as [r|e] eqn:E; [|eauto].
  destruct (remove_one _ _ _ _ _ r E) as (a & Ea & B). rewrite Ea. pose proof E as E'. unfold remove in E'. rewrite Ea in E'. cbn [bind] in E'.
  destruct (assert (nleb N (a_lo (get_axis (value s o) a)) v)); [|discriminate]. cbn [bind] in E'. destruct (assert (nleb N v (a_hi (get_axis (value s o) a)))); [|discriminate]. cbn [bind] in E'.
  destruct (py_FindMult (get_axis (value s o) a) v) as [mult|e]; [|discriminate]. cbn [bind] in E'. cbv zeta.
  destruct (assert (0 <=? _)); [|discriminate]. cbn [bind] in E'.
  destruct (_ =? 0); [injection E' as <-; cbn; exists s, tt; auto|]. cbn [orb].
  destruct (nleb N v _); [injection E' as <-; cbn; exists s, tt; auto|]. cbn [orb].
  destruct (nleb N _ v); [injection E' as <-; cbn; exists s, tt; auto|]. cbn [orb]. eapply rebind_does; eauto.
Qed.
Theorem clamp_does (s : store N) o ax side : sound s o -> does (h_clamp junk o ax side) s o (fun nrb => clamp junk nrb ax side).
Proof.
  intros So. apply does_eq. unfold h_clamp, hbind, this, lift. destruct (clamp junk (value s o) ax side) as [r|e] eqn:E; [|eauto].
  destruct (clamp_one _ _ _ r E) as (a & Ea & B). rewrite Ea. eapply rebind_does; eauto.
Qed.
Theorem unclamp_does (s : store N) o ax side c : sound s o -> does (h_unclamp junk o ax side c) s o (fun nrb => unclamp junk nrb ax side c).
Proof.
  intros So. apply does_eq. unfold h_unclamp, hbind, this, lift. destruct (unclamp junk (value s o) ax side c) as [r|e] eqn:E; [|eauto].
  destruct (unclamp_one _ _ _ _ r E) as (a & Ea & B). rewrite Ea. eapply rebind_does; eauto.
Qed.
Theorem elevate_does (s : store N) o ax times : sound s o -> does (h_elevate junk junk2 o ax times) s o (fun nrb => elevate junk junk2 nrb ax times).
Proof.
  intros So. apply does_eq. unfold h_elevate, hbind, this, lift. destruct (elevate junk junk2 (value s o) ax times) as [r|e] eqn:E; [|eauto].
  unfold elevate in E. destruct (assert (0 <=? times)); [|discriminate]. cbn [bind] in E. destruct (times =? 0); [injection E as <-; exists s, tt; auto|].
  destruct (py_axis (n_dim (value s o)) ax) as [b|] eqn:Ea; [|discriminate]. cbn [bind] in E. inv_res. subst r. eapply rebind_does; [auto|exact Ea|eexists; reflexivity].
Qed.
End Refine.
