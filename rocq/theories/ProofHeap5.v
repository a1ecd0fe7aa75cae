(** Construction, copies, reversal and evaluation on shared arrays. *)
From Coq Require Import ZArith List Bool Lia FunctionalExtensionality.
From Verif Require Import Num Loop ModelNurbs ModelRemove ModelDer ModelIo ModelHeap SpecNurbs SpecIo SpecHeap ProofHeap ProofHeap2 ProofHeap3 ProofHeap4.
Import ListNotations.
Local Open Scope Z_scope.

Section More.
Context {N : Num}.
Variables (junk : Z -> N) (junk2 : Z -> Z -> N) (junk3 : Z -> Z -> Z -> N) (junkS : Z -> Z) (nsqrt : N -> N).

(** ** Stores that only gain arrays *)
Definition extends (s s' : store N) : Prop :=
  s_next s <= s_next s' /\ s_obj s' = s_obj s /\ s_nobj s' = s_nobj s /\ forall l, l < s_next s -> s_arr s' l = s_arr s l.
Lemma ext_refl s : extends s s.
Proof. unfold extends. auto with zarith. Qed.
Lemma ext_trans s1 s2 s3 : extends s1 s2 -> extends s2 s3 -> extends s1 s3.
Proof. intros (A1 & A2 & A3 & A4) (B1 & B2 & B3 & B4). split; [lia|]. split; [congruence|]. split; [congruence|]. intros l H. rewrite B4 by lia. apply A4; auto. Qed.
Lemma ext_alloc s a : extends s (fst (alloc a s)).
Proof. unfold extends, alloc. cbn. split; [lia|]. split; [auto|]. split; [auto|]. intros l H. destruct (Z.eqb_spec l (s_next s)); [lia|auto]. Qed.
Lemma ext_exists s s' l : extends s s' -> exists_array s l -> exists_array s' l.
Proof. intros (A & _) H. unfold exists_array in *. lia. Qed.
Lemma ext_contents s s' x : extends s s' -> arg_ok s x -> contents s' x = contents s x.
Proof. intros (A1 & A2 & A3 & A4) H. destruct x; cbn in *; auto. apply A4. unfold exists_array in H. lia. Qed.
Lemma ext_ok s s' x : extends s s' -> arg_ok s x -> arg_ok s' x.
Proof. intros E H. destruct x; cbn in *; auto. eapply ext_exists; eauto. Qed.
Lemma ext_kvecs s s' ks : extends s s' -> Forall (exists_array s) ks -> kvecs s' ks = kvecs s ks.
Proof. intros (A1 & A2 & A3 & A4) F. unfold kvecs. apply map_ext_in. intros l I. rewrite Forall_forall in F. specialize (F l I). unfold exists_array in F. now rewrite A4 by lia. Qed.
Lemma ext_value s s' o : extends s s' -> sound s o -> sound s' o /\ value s' o = value s o.
Proof.
  intros (A1 & A2 & A3 & A4) So. assert (F : framed s (fun _ => False) (fun _ => False) s') by (constructor; auto; [lia|intros; now rewrite A2]).
  destruct (sound_frame _ _ o _ _ F So) as (A & B & C); auto.
Qed.
Lemma asarray_ext s x : 0 <= s_next s -> arg_ok s x -> exists s' l, asarray x s = (s', Ok l) /\ extends s s' /\ exists_array s' l /\ s_arr s' l = contents s x.
Proof.
  intros Hn H. destruct x as [l c|a]; cbn [asarray].
  - exists s, l. split; [reflexivity|]. split; [apply ext_refl|]. split; [exact H|reflexivity].
  - exists (fst (alloc a s)), (s_next s). split; [reflexivity|]. split; [apply ext_alloc|]. split; [unfold exists_array; cbn; lia|]. cbn. now rewrite Z.eqb_refl.
Qed.
Lemma ext_pos s s' : extends s s' -> 0 <= s_next s -> 0 <= s_next s'.
Proof. intros (A & _). lia. Qed.
Lemma mapH_asarray xs : forall s, 0 <= s_next s -> Forall (arg_ok s) xs ->
  exists s' ls, mapH asarray xs s = (s', Ok ls) /\ extends s s' /\ Forall (exists_array s') ls /\ map (s_arr s') ls = map (contents s) xs.
Proof.
  induction xs as [|x xs IH]; intros s Hn F; cbn [mapH].
  - exists s, []. split; [reflexivity|]. split; [apply ext_refl|]. auto.
  - inversion F as [|? ? F1 F2]; subst. destruct (asarray_ext s x Hn F1) as (s1 & l & A1 & A2 & A3 & A4).
    destruct (IH s1) as (s2 & ls & B1 & B2 & B3 & B4); [eapply ext_pos; eauto|eapply Forall_impl; [|exact F2]; intros; eapply ext_ok; eauto|].
    exists s2, (l :: ls). unfold hbind. rewrite A1, B1. split; [reflexivity|]. split; [eapply ext_trans; eauto|]. split; [constructor; [eapply ext_exists; eauto|auto]|].
    cbn [map]. rewrite B4. f_equal.
    + destruct B2 as (_ & _ & _ & B2). unfold exists_array in A3. rewrite B2 by lia. exact A4.
    + apply map_ext_in. intros y I. rewrite Forall_forall in F2. eapply ext_contents; eauto.
Qed.
Lemma asarray_opt_ext s x : 0 <= s_next s -> opt_ok s x -> exists s', asarray_opt x s = (s', Ok (option_map (contents s) x)) /\ extends s s'.
Proof.
  intros Hn H. destruct x as [x|]; cbn [asarray_opt option_map]; [|exists s; split; [reflexivity|apply ext_refl]].
  destruct (asarray_ext s x Hn H) as (s1 & l & A1 & A2 & A3 & A4). exists s1. unfold hbind. rewrite A1. cbn. rewrite A4. auto.
Qed.
Lemma mapH_asarray_opt xs : forall s, 0 <= s_next s -> Forall (opt_ok s) xs ->
  exists s', mapH asarray_opt xs s = (s', Ok (map (option_map (contents s)) xs)) /\ extends s s'.
Proof.
  induction xs as [|x xs IH]; intros s Hn F; cbn [mapH map]; [exists s; split; [reflexivity|apply ext_refl]|].
  inversion F as [|? ? F1 F2]; subst. destruct (asarray_opt_ext s x Hn F1) as (s1 & A1 & A2).
  destruct (IH s1) as (s2 & B1 & B2); [eapply ext_pos; eauto|eapply Forall_impl; [|exact F2]; intros [y|]; cbn; auto; intros; eapply ext_ok; eauto|].
  exists s2. unfold hbind. rewrite A1, B1. split; [|eapply ext_trans; eauto]. unfold hret. do 3 f_equal. apply map_ext_in. intros [y|] I; cbn; auto. f_equal. rewrite Forall_forall in F2. eapply ext_contents; eauto. apply (F2 _ I).
Qed.
Lemma mapH_read ls : forall s : store N, mapH read ls s = (s, Ok (map (s_arr s) ls)).
Proof. induction ls; intros s; cbn [mapH map]; [reflexivity|]. unfold hbind. cbn [read]. rewrite IHls. reflexivity. Qed.

(** ** Construction *)
Theorem init_makes (s : store N) knots control fields weights :
  0 <= s_next s -> 0 <= s_nobj s -> Forall (arg_ok s) knots -> opt_ok s control -> opt_ok s fields -> opt_ok s weights ->
  makes (h_init junk knots control fields weights) s
    (bind (assert (forallb (fun k => Nat.eqb (length (nd_shape k)) 1) (map (contents s) knots)))
       (fun _ => init junk (map (fun x => nd_vec (contents s x)) knots) (option_map (contents s) control) (option_map (contents s) fields) (option_map (contents s) weights))).
Proof.
  intros Hn Ho Fk Oc Of Ow. apply makes_eq. destruct (mapH_asarray knots s Hn Fk) as (s1 & ls & A1 & A2 & A3 & A4).
  remember (h_init junk knots control fields weights s) as m eqn:Em. unfold h_init in Em. unfold hbind at 1 in Em. rewrite A1 in Em. unfold hbind at 1 in Em. rewrite mapH_read, A4 in Em. unfold hbind at 1, lift at 1 in Em.
  destruct (assert _) as [u|e]; [|cbn; exists s1; auto]. cbn [bind].
  pose proof (ext_pos _ _ A2 Hn) as Hn1.
  assert (B : exists s2 lc, (match control with None => hret (-1) | Some x => asarray x end) s1 = (s2, Ok lc) /\ extends s1 s2 /\ (forall x, control = Some x -> exists_array s2 lc /\ s_arr s2 lc = contents s x)).
  { destruct control as [x|]; [|exists s1, (-1); split; [reflexivity|]; split; [apply ext_refl|discriminate]]. cbn in Oc.
    destruct (asarray_ext s1 x Hn1 (ext_ok _ _ _ A2 Oc)) as (s2 & l & B1 & B2 & B3 & B4). exists s2, l. split; [auto|]. split; [auto|]. intros x' [= <-]. split; [auto|]. rewrite B4. eapply ext_contents; eauto. }
  destruct B as (s2 & lc & B1 & B2 & B3). unfold hbind at 1 in Em. rewrite B1 in Em. pose proof (ext_trans _ _ _ A2 B2) as T2. pose proof (ext_pos _ _ T2 Hn) as Hn2.
  assert (O : forall s' x, extends s s' -> opt_ok s x -> opt_ok s' x /\ option_map (contents s') x = option_map (contents s) x).
  { intros s' [x|] E OO; cbn in *; [|auto]. split; [eapply ext_ok; eauto|f_equal; eapply ext_contents; eauto]. }
  destruct (O s2 weights T2 Ow) as [Ow2 Cw2]. destruct (asarray_opt_ext s2 weights Hn2 Ow2) as (s3 & C1 & C2). unfold hbind at 1 in Em. rewrite C1, Cw2 in Em. pose proof (ext_trans _ _ _ T2 C2) as T3. pose proof (ext_pos _ _ T3 Hn) as Hn3.
  destruct (O s3 fields T3 Of) as [Of3 Cf3]. destruct (asarray_opt_ext s3 fields Hn3 Of3) as (s4 & D1 & D2). unfold hbind at 1 in Em. rewrite D1, Cf3 in Em. pose proof (ext_trans _ _ _ T3 D2) as T4. pose proof (ext_pos _ _ T4 Hn) as Hn4.
  assert (Ec : (match control with None => hret None | Some _ => hbind (read lc) (fun c => hret (Some c)) end) s4 = (s4, Ok (option_map (contents s) control))).
  { destruct control as [x|]; [|reflexivity]. destruct (B3 x eq_refl) as [B4 B5]. unfold hbind, read, hret. cbn [option_map]. do 3 f_equal. rewrite <- B5. destruct (ext_trans _ _ _ C2 D2) as (_ & _ & _ & Y). apply Y. unfold exists_array in B4. lia. }
  unfold hbind at 1 in Em. rewrite Ec in Em. unfold hbind at 1, lift in Em. rewrite map_map in Em.
  destruct (init junk _ _ _ _) as [r|e] eqn:E; [|cbn; eauto]. cbn.
  (* the knots *)
  assert (L4 : Forall (exists_array s4) ls) by (eapply Forall_impl; [|exact A3]; intros; eapply ext_exists; [exact (ext_trans _ _ _ B2 (ext_trans _ _ _ C2 D2))|auto]).
  assert (K4 : kvecs s4 ls = map (fun x => nd_vec (contents s x)) knots).
  { rewrite (ext_kvecs _ _ _ (ext_trans _ _ _ B2 (ext_trans _ _ _ C2 D2)) A3). unfold kvecs. rewrite <- (map_map (s_arr s1) nd_vec), A4, map_map. reflexivity. }
  assert (R : exists shape nc f, r = mkNurbs (zip_axes shape (map (fun x => nd_vec (contents s x)) knots)) nc f /\ length shape = length knots /\
             (forall c, option_map (contents s) control = Some c -> option_map (contents s) fields = None -> (last (nd_shape c) 0 =? 4) = true -> shape = removelast (nd_shape c) /\ nc = last (nd_shape c) 0 /\ f = (fun idx k => nd_get c (idx ++ [k])) /\ (2 <= length (nd_shape c))%nat)).
  { unfold init in E. do 3 (destruct (assert _) in E; [|discriminate]; cbn [bind] in E). destruct (init_control _ _ _ _) as [[sh cw]|] eqn:Eic; [|discriminate]. cbn [bind] in E.
    destruct (init_fields _ _) as [[[sh' nc] f]|] eqn:Eif; [|discriminate]. cbn [bind] in E. destruct (assert (Z.of_nat (length sh') =? _)) eqn:El; [|discriminate]. cbn [bind] in E. destruct (assert _) in E; [|discriminate]. cbn [bind] in E. injection E as <-.
    exists sh', nc, f. split; [reflexivity|]. split.
    - unfold assert in El. destruct (Z.eqb_spec (Z.of_nat (length sh')) (Z.of_nat (length (map (fun x => nd_vec (contents s x)) knots)))) as [X|]; [|discriminate]. rewrite map_length in X. lia.
    - intros c Hc Hf H4. rewrite Hc in Eic. rewrite Hf in Eif. unfold init_fields in Eif. injection Eif as <- <- <-. unfold init_control in Eic.
      destruct (assert (2 <=? Z.of_nat _)) eqn:E2; [|discriminate]. cbn [bind] in Eic. destruct (assert (2 <=? last _ _)) eqn:E3; [|discriminate]. cbn [bind] in Eic. destruct (assert (_ <=? 4)); [|discriminate]. cbn [bind] in Eic.
      apply Z.eqb_eq in H4. rewrite H4 in Eic. cbn in Eic. destruct (assert _) in Eic; [|discriminate]. cbn [bind] in Eic. injection Eic as <- <-. split; [auto|]. split; [auto|]. split; [auto|]. unfold assert in E2. destruct (Z.leb_spec 2 (Z.of_nat (length (nd_shape c)))); [lia|discriminate]. }
  destruct R as (shape & nc & f & -> & Hl & R).
  assert (New : forall m, m = hbind (alloc (nurbs_array (mkNurbs (zip_axes shape (map (fun x => nd_vec (contents s x)) knots)) nc f))) (fun la => new_obj (la, ls)) s4 ->
     exists s' o', m = (s', Ok o') /\ s_nobj s <= o' /\ sound s' o' /\ value s' o' = mkNurbs (zip_axes shape (map (fun x => nd_vec (contents s x)) knots)) nc f).
  { intros m' ->. destruct (made s4 (mkNurbs (zip_axes shape (map (fun x => nd_vec (contents s x)) knots)) nc f) ls) as (s' & M1 & M2 & M3); [auto| |auto| |].
    - destruct T4 as (_ & _ & -> & _). auto.
    - cbn [n_axes]. rewrite zip_vecs by (rewrite map_length; auto). exact K4.
    - exists s', (s_nobj s4). split; [exact M1|]. split; [destruct T4 as (_ & _ & -> & _); lia|auto]. }
  destruct control as [x|]; [|apply New; exact Em]. cbn [option_map] in Em. destruct (option_map (contents s) fields) as [F|] eqn:EF; [apply New; exact Em|].
  destruct (last (nd_shape (contents s x)) 0 =? 4) eqn:E4; [|cbn [andb] in Em; apply New; exact Em]. cbn [andb] in Em. destruct (contiguous x); [|apply New; exact Em].
  destruct (R _ eq_refl eq_refl E4) as (-> & -> & -> & Hlen). destruct (B3 x eq_refl) as [B4 B5].
  unfold hbind, hret, new_obj in Em. eexists. exists (s_nobj s4). split; [exact Em|]. split; [destruct T4 as (_ & _ & -> & _); lia|].
  assert (Ec4 : s_arr s4 lc = contents s x) by (rewrite <- B5; destruct (ext_trans _ _ _ C2 D2) as (_ & _ & _ & Y); apply Y; unfold exists_array in B4; lia).
  assert (Hlen' : length ls = length knots) by (pose proof (f_equal (@length _) K4) as Z4; unfold kvecs in Z4; now rewrite !map_length in Z4).
  split.
  - split; [cbn; destruct T4 as (_ & _ & -> & _); lia|]. unfold arrays. cbn [s_obj s_arr]. rewrite Z.eqb_refl. cbn [fst snd]. split.
    + constructor; [|eapply Forall_impl; [|exact L4]; unfold exists_array; cbn; auto]. unfold exists_array in *. cbn. destruct (ext_trans _ _ _ C2 D2) as (Y & _). lia.
    + rewrite Ec4. rewrite Hlen'. rewrite <- Hl. destruct (nd_shape (contents s x)) as [|y l0] eqn:Es; [cbn in Hlen; lia|]. rewrite (removelast_len _ (length l0)) by reflexivity. reflexivity.
  - unfold value. cbn [s_obj s_arr]. rewrite Z.eqb_refl. cbn [fst snd]. rewrite Ec4. unfold held. rewrite map_map. unfold kvecs in K4. rewrite K4. reflexivity.
Qed.

(** ** Copies *)
Lemma mapH_copy ks : forall s : store N, 0 <= s_next s -> Forall (exists_array s) ks ->
  exists s', mapH (fun l => hbind (read l) (fun a => alloc a)) ks s = (s', Ok (zseq (length ks) (s_next s))) /\ extends s s' /\ s_next s' = s_next s + Z.of_nat (length ks) /\ map (s_arr s') (zseq (length ks) (s_next s)) = map (s_arr s) ks.
Proof.
  induction ks as [|l ks IH]; intros s Hn F; cbn [mapH length zseq map]; [exists s; split; [reflexivity|]; split; [apply ext_refl|]; split; [lia|auto]|].
  inversion F as [|? ? F1 F2]; subst. set (s1 := fst (alloc (s_arr s l) s)). pose proof (ext_alloc s (s_arr s l)) as E1. fold s1 in E1.
  destruct (IH s1) as (s2 & B1 & B2 & B3 & B4); [cbn; lia|eapply Forall_impl; [|exact F2]; intros; eapply ext_exists; eauto|].
  change (s_next s1) with (s_next s + 1) in *.
  exists s2. split; [|split; [eapply ext_trans; eauto|split; [lia|]]].
  - unfold hbind at 1 2. cbn [read]. unfold alloc at 1. fold s1. change {| s_arr := _; s_next := _; s_obj := _; s_nobj := _ |} with s1. unfold hbind at 1. rewrite B1. reflexivity.
  - f_equal.
    + destruct B2 as (_ & _ & _ & B2). rewrite B2 by (cbn; lia). cbn. now rewrite Z.eqb_refl.
    + rewrite B4. apply map_ext_in. intros y I. rewrite Forall_forall in F2. specialize (F2 y I). destruct E1 as (_ & _ & _ & E1). apply E1. unfold exists_array in F2. lia.
Qed.
Lemma zseq_in n : forall lo k, In k (zseq n lo) <-> lo <= k < lo + Z.of_nat n.
Proof. induction n; intros lo k; cbn [zseq In]; [split; [contradiction|lia]|]. rewrite IHn. lia. Qed.
Lemma zseq_nodup n : forall lo, NoDup (zseq n lo).
Proof. induction n; intros lo; cbn; constructor; auto. rewrite zseq_in. lia. Qed.
Theorem copy_spec (s : store N) o : sound s o ->
  exists s', h_copy o s = (s', Ok (s_nobj s)) /\ sound s' (s_nobj s) /\ value s' (s_nobj s) = value s o /\ NoDup (arrays s' (s_nobj s)) /\ Forall (fun l => s_next s <= l) (arrays s' (s_nobj s)).
Proof.
  intros So. pose proof (next_pos s o So) as Hn. pose proof (nobj_pos s o So) as Ho. set (A := s_arr s (fst (s_obj s o))). set (s1 := fst (alloc A s)). pose proof (ext_alloc s A) as E1. fold s1 in E1.
  destruct (mapH_copy (snd (s_obj s o)) s1) as (s2 & B1 & B2 & B3 & B4); [cbn; lia|eapply Forall_impl; [|exact (knots_exist s o So)]; intros; eapply ext_exists; eauto|].
  change (s_next s1) with (s_next s + 1) in *. pose proof (ext_trans _ _ _ E1 B2) as E2.
  set (ks := zseq (length (snd (s_obj s o))) (s_next s + 1)) in *.
  exists (fst (new_obj (s_next s, ks) s2)).
  assert (N2 : s_nobj s2 = s_nobj s) by (destruct E2 as (_ & _ & E & _); exact E).
  assert (EA : s_arr s2 (s_next s) = A) by (destruct B2 as (_ & _ & _ & B2); rewrite B2 by (cbn; lia); cbn; now rewrite Z.eqb_refl).
  assert (EK : map (s_arr s2) ks = map (s_arr s) (snd (s_obj s o))).
  { rewrite B4. apply map_ext_in. intros y I. pose proof (knots_exist s o So) as F. rewrite Forall_forall in F. specialize (F y I). destruct E1 as (_ & _ & _ & E1). apply E1. unfold exists_array in F. lia. }
  assert (Eo : s_obj (fst (new_obj (s_next s, ks) s2)) (s_nobj s) = (s_next s, ks)) by (cbn; rewrite N2; now rewrite Z.eqb_refl).
  split; [|split; [|split; [|split]]].
  - unfold h_copy. unfold hbind at 1. cbn [refs]. unfold hbind at 1. unfold hbind at 1. cbn [read]. unfold alloc at 1. fold A. change {| s_arr := _; s_next := _; s_obj := _; s_nobj := _ |} with s1.
    unfold hbind at 1. rewrite B1. unfold new_obj. cbn [fst]. now rewrite N2.
  - split; [cbn; lia|]. unfold arrays. rewrite Eo. cbn [fst snd]. split.
    + constructor; [unfold exists_array; cbn; lia|]. apply Forall_forall. intros l I. apply zseq_in in I. unfold exists_array. cbn. lia.
    + cbn [new_obj fst s_arr]. rewrite EA. unfold A, ks. destruct So as (_ & _ & So). rewrite So. f_equal. clear. generalize (s_next s + 1). induction (snd (s_obj s o)); intros; cbn; auto.
  - unfold value. rewrite Eo. cbn [fst snd new_obj s_arr]. rewrite EA, EK. reflexivity.
  - unfold arrays. rewrite Eo. cbn [fst snd]. constructor; [unfold ks; rewrite zseq_in; lia|apply zseq_nodup].
  - unfold arrays. rewrite Eo. cbn [fst snd]. constructor; [lia|]. apply Forall_forall. intros l I. apply zseq_in in I. lia.
Qed.

(** ** Reversal *)
Definition flips (sh : list Z) (as_ : list nat) (idx : list Z) : list Z :=
  fold_right (fun a idx => lset a (nth a sh 0 - 1 - nth a idx 0) idx) idx as_.
Lemma flips_length sh as_ idx : length (flips sh as_ idx) = length idx.
Proof. induction as_; cbn; auto. rewrite length_lset. auto. Qed.
Lemma flips_nth sh as_ idx b : (b < length idx)%nat -> nth b (flips sh as_ idx) 0 = if Nat.even (count_occ Nat.eq_dec as_ b) then nth b idx 0 else nth b sh 0 - 1 - nth b idx 0.
Proof.
  intros Hb. induction as_ as [|a as_ IH]; [reflexivity|]. cbn [flips fold_right count_occ]. fold (flips sh as_ idx). destruct (Nat.eq_dec a b) as [->|Hab].
  - rewrite nth_lset_same by (rewrite flips_length; auto). rewrite IH, Nat.even_succ, <- Nat.negb_even. destruct (Nat.even _); cbn [negb]; lia.
  - rewrite nth_lset_other by auto. exact IH.
Qed.
Lemma reverse1_shape (nrb : nurbs N) a : n_shape (reverse1 nrb a) = n_shape nrb.
Proof. unfold reverse1, n_shape. cbn [n_axes]. rewrite map_lset. cbn [KntRev a_size]. unfold get_axis. rewrite <- (map_nth a_size). apply lset_self. Qed.
Lemma reverse_fold_shape as_ : forall nrb : nurbs N, n_shape (fold_left reverse1 as_ nrb) = n_shape nrb /\ n_comp (fold_left reverse1 as_ nrb) = n_comp nrb.
Proof. induction as_; intros nrb; cbn [fold_left]; [auto|]. destruct (IHas_ (reverse1 nrb a)) as [-> ->]. rewrite reverse1_shape. auto. Qed.
Lemma reverse_fold_arr as_ : forall (nrb : nurbs N) idx c, n_arr (fold_left reverse1 as_ nrb) idx c = n_arr nrb (flips (n_shape nrb) as_ idx) c.
Proof.
  induction as_ as [|a as_ IH]; intros nrb idx c; cbn [fold_left]; [reflexivity|]. rewrite IH, reverse1_shape. cbn [reverse1 n_arr flips fold_right]. fold (flips (n_shape nrb) as_ idx).
  replace (a_size (get_axis nrb a)) with (nth a (n_shape nrb) 0); [reflexivity|]. unfold n_shape, get_axis. change 0 with (a_size (@axis0 N)) at 1. apply map_nth.
Qed.
Lemma mapH_lift {A B} (f : A -> res B) (xs : list A) (s : store N) : exists R, mapH (fun x => lift (f x)) xs s = (s, R).
Proof. induction xs as [|x xs [R IH]]; cbn [mapH]; [eexists; reflexivity|]. unfold hbind, lift. unfold lift in IH. destruct (f x); [|eexists; reflexivity]. rewrite IH. destruct R; eexists; reflexivity. Qed.
Lemma reverse_axes_fold axes (s : store N) : forall (nrb : nurbs N) d, n_dim nrb = Z.of_nat d ->
  match snd (mapH (fun ax => lift (py_axis (Z.of_nat d) ax)) axes s) with
  | Ok as_ => reverse_axes nrb axes = Ok (fold_left reverse1 as_ nrb) /\ Forall (fun a => (a < d)%nat) as_
  | Raise e => reverse_axes nrb axes = Raise e
  end.
Proof.
  induction axes as [|ax axes IH]; intros nrb d Hd; [cbn; auto|]. cbn [mapH reverse_axes]. unfold hbind, lift at 1. rewrite Hd. destruct (py_axis (Z.of_nat d) ax) as [a|e] eqn:Ea; [|reflexivity]. cbn [bind].
  assert (Hd' : n_dim (reverse1 nrb a) = Z.of_nat d) by (rewrite <- Hd; unfold n_dim, reverse1; cbn; now rewrite length_lset).
  specialize (IH (reverse1 nrb a) d Hd'). destruct (mapH_lift (fun ax => py_axis (Z.of_nat d) ax) axes s) as [R ER]. rewrite ER in *. cbn [snd] in IH. destruct R as [as_|e]; cbn; [|auto].
  destruct IH as [IH1 IH2]. split; [auto|]. constructor; [eapply axis_lt; eauto|auto].
Qed.
Lemma reverse_knots_spec as_ : forall (nrb : nurbs N) lks s, 0 <= s_next s -> Forall (exists_array s) lks -> kvecs s lks = map ax_vec (n_axes nrb) -> Forall (fun a => (a < length (n_axes nrb))%nat) as_ ->
  exists s' lks', h_reverse_knots nrb as_ lks s = (s', Ok lks') /\ extends s s' /\ Forall (exists_array s') lks' /\ kvecs s' lks' = map ax_vec (n_axes (fold_left reverse1 as_ nrb)).
Proof.
  induction as_ as [|a as_ IH]; intros nrb lks s Hn F V L; cbn [h_reverse_knots fold_left]; [exists s, lks; split; [reflexivity|]; split; [apply ext_refl|]; auto|].
  inversion L as [|? ? L1 L2]; subst. unfold hbind. set (K := axis_array (KntRev (get_axis nrb a))). pose proof (ext_alloc s K) as E1. cbn [alloc]. set (s1 := fst (alloc K s)) in *. change {| s_arr := _; s_next := _; s_obj := _; s_nobj := _ |} with s1.
  destruct (IH (reverse1 nrb a) (lset a (s_next s) lks) s1) as (s2 & lks' & B1 & B2 & B3 & B4).
  - cbn; lia.
  - apply Forall_lset; [unfold exists_array; cbn; lia|]. eapply Forall_impl; [|exact F]. intros; eapply ext_exists; eauto.
  - unfold kvecs. rewrite map_lset. change (map (fun l => nd_vec (s_arr s1 l)) lks) with (kvecs s1 lks). rewrite (ext_kvecs _ _ _ E1 F), V. cbn [reverse1 n_axes]. rewrite map_lset. f_equal. cbn. rewrite Z.eqb_refl. reflexivity.
  - cbn [reverse1 n_axes]. rewrite length_lset. auto.
  - exists s2, lks'. split; [exact B1|]. split; [eapply ext_trans; eauto|]. auto.
Qed.
Theorem reverse_does (s : store N) o axes : sound s o -> does (h_reverse o axes) s o (fun nrb => reverse nrb axes).
Proof.
  intros So. unfold does, reverse. set (axs := match axes with [] => zseq (length (n_axes (value s o))) 0 | _ => axes end).
  remember (h_reverse o axes s) as m eqn:Em. unfold h_reverse in Em. unfold hbind at 1 in Em. cbn [this] in Em. cbv zeta in Em. fold axs in Em.
  pose proof (reverse_axes_fold axs s (value s o) (length (n_axes (value s o))) eq_refl) as RF. change (Z.of_nat (length (n_axes (value s o)))) with (n_dim (value s o)) in RF.
  destruct (mapH_lift (fun ax => py_axis (n_dim (value s o)) ax) axs s) as [R ER]. unfold hbind at 1 in Em. rewrite ER in Em, RF. cbn [snd] in RF.
  destruct R as [as_|e]; [|rewrite RF; eauto]. destruct RF as [RF La]. rewrite RF in *. unfold hbind at 1, lift in Em. unfold hbind at 1 in Em. cbn [refs] in Em.
  pose proof (next_pos s o So) as Hn. pose proof So as (S1 & S2 & S3).
  destruct (reverse_knots_spec as_ (value s o) (snd (s_obj s o)) s Hn (knots_exist s o So) (value_vecs s o So) La) as (s1 & lks & B1 & B2 & B3 & B4).
  unfold hbind at 1 in Em. rewrite B1 in Em. set (r := fold_left reverse1 as_ (value s o)) in *.
  destruct (ext_value _ _ _ B2 So) as [So1 V1]. destruct (unflipped (value s o) as_) eqn:Eu.
  - unfold hbind, hret, bind_refs in Em. eexists. exists tt. split; [exact Em|].
    match goal with |- sound ?x o /\ _ => set (s2 := x) end.
    assert (Eo : s_obj s2 o = (fst (s_obj s o), lks)) by (cbn; now rewrite Z.eqb_refl).
    assert (EA : s_arr s2 (fst (s_obj s o)) = s_arr s (fst (s_obj s o))) by (destruct B2 as (_ & _ & _ & B2); cbn; apply B2; pose proof (array_exists s o So) as X; unfold exists_array in X; lia).
    destruct (reverse_fold_shape as_ (value s o)) as [Sh Nc]. fold r in Sh, Nc.
    assert (Ll : length lks = length (n_axes r)) by (pose proof (f_equal (@length _) B4) as X; unfold kvecs in X; now rewrite !map_length in X).
    assert (Lr : length (n_axes r) = length (snd (s_obj s o))) by (rewrite <- (value_dim s o So); unfold n_shape in Sh; apply (f_equal (@length _)) in Sh; now rewrite !map_length in Sh).
    split.
    + split; [cbn; destruct B2 as (_ & _ & -> & _); exact S1|]. unfold arrays. rewrite Eo. cbn [fst snd]. split; [constructor|].
      * change (exists_array s1 (fst (s_obj s o))). eapply ext_exists; [exact B2|apply array_exists; auto].
      * exact B3.
      * rewrite EA, S3. lia.
    + assert (V2 : value s2 o = mkNurbs (n_axes r) (n_comp r) (n_arr (value s o))).
      { unfold value at 1. rewrite Eo. cbn [fst snd]. rewrite EA. unfold held. rewrite (value_shape s o So), removelast_app1, last_app1, Nc, <- Sh. f_equal.
        rewrite map_map. change (map (fun x => nd_vec (s_arr s2 x)) lks) with (kvecs s1 lks). rewrite B4. apply zip_rebuild. }
      rewrite V2. split; [apply (same_refl r)|]. split; [reflexivity|]. cbn [n_arr]. intros idx c I _. unfold r. rewrite reverse_fold_arr. f_equal.
      assert (I' : in_shape (n_shape (value s o)) idx) by (rewrite <- Sh; exact I).
      assert (Li : length idx = length (n_shape (value s o))) by (clear - I'; induction I'; cbn; auto).
      symmetry. apply (nth_ext _ _ 0 0); [apply flips_length|]. intros b Hb. rewrite flips_length in Hb. rewrite flips_nth by auto. destruct (Nat.even _) eqn:Ev; [auto|].
      assert (Ib : In b as_) by (destruct (in_dec Nat.eq_dec b as_) as [|Nb]; [auto|]; apply (count_occ_not_In Nat.eq_dec) in Nb; rewrite Nb in Ev; discriminate).
      unfold unflipped in Eu. rewrite forallb_forall in Eu. specialize (Eu b Ib). rewrite Ev, orb_false_r in Eu. apply Z.leb_le in Eu.
      assert (Es : a_size (get_axis (value s o) b) = nth b (n_shape (value s o)) 0) by (unfold n_shape, get_axis; change 0 with (a_size (@axis0 N)) at 1; symmetry; apply map_nth).
      assert (Hi : 0 <= nth b idx 0 < nth b (n_shape (value s o)) 0).
      { clear - I' Hb. revert b Hb. induction I' as [|x y l l' H _ IH]; intros [|b] Hb; cbn in *; try lia. apply IH. lia. }
      lia.
  - pose proof (next_pos s1 o So1) as Hn1. destruct (rebound s1 o r lks So1 B3 B4) as (s2 & R1 & R2 & R3). exists s2, tt. split; [rewrite Em; exact R1|]. split; [auto|]. rewrite R3. apply same_refl.
Qed.

(** ** Evaluation *)
Theorem call_is (s : store N) o args fields flag : sound s o -> Forall (opt_ok s) args -> opt_ok s fields ->
  snd (h_call junk junk2 junk3 junkS o args fields flag s) =
  call junk junk2 junk3 junkS (value s o) (map (option_map (fun x => nd_vec (contents s x))) args)
    (match fields with Some x => FArr (contents s x) | None => if flag then FYes else FNo end).
Proof.
  intros So Fa Of. unfold h_call. unfold hbind at 1. cbn [this]. pose proof (next_pos s o So) as Hn. destruct (mapH_asarray_opt args s Hn Fa) as (s1 & A1 & A2). unfold hbind at 1. rewrite A1.
  pose proof (ext_pos _ _ A2 Hn) as Hn1. destruct (asarray_opt_ext s1 fields Hn1) as (s2 & B1 & B2); [destruct fields; cbn in *; auto; eapply ext_ok; eauto|]. unfold hbind. rewrite B1. cbn [snd lift]. f_equal.
  - rewrite map_map. apply map_ext. intros [x|]; reflexivity.
  - destruct fields as [x|]; cbn [option_map]; [|reflexivity]. now rewrite (ext_contents _ _ _ A2 Of).
Qed.
Theorem evaluate_is (s : store N) o args fields : sound s o -> Forall (opt_ok s) args -> opt_ok s fields ->
  snd (h_evaluate junk junk2 junk3 junkS o args fields s) =
  evaluate junk junk2 junk3 junkS (value s o) (option_map (contents s) fields) (map (option_map (fun x => nd_vec (contents s x))) args).
Proof.
  intros So Fa Of. unfold h_evaluate. unfold hbind at 1. cbn [this]. pose proof (next_pos s o So) as Hn. destruct (mapH_asarray_opt args s Hn Fa) as (s1 & A1 & A2). unfold hbind at 1. rewrite A1.
  pose proof (ext_pos _ _ A2 Hn) as Hn1. destruct (asarray_opt_ext s1 fields Hn1) as (s2 & B1 & B2); [destruct fields; cbn in *; auto; eapply ext_ok; eauto|]. unfold hbind. rewrite B1. cbn [snd lift]. f_equal.
  - destruct fields as [x|]; cbn [option_map]; [|reflexivity]. now rewrite (ext_contents _ _ _ A2 Of).
  - rewrite map_map. apply map_ext. intros [x|]; reflexivity.
Qed.
Theorem derivative_is (s : store N) o order args fields mapped : sound s o -> Forall (opt_ok s) args -> opt_ok s fields ->
  snd (h_derivative junk junk2 o order args fields mapped s) =
  derivative junk junk2 (value s o) order (option_map (contents s) fields) (map (option_map (fun x => nd_vec (contents s x))) args) mapped.
Proof.
  intros So Fa Of. unfold h_derivative. unfold hbind at 1. cbn [this]. pose proof (next_pos s o So) as Hn. destruct (mapH_asarray_opt args s Hn Fa) as (s1 & A1 & A2). unfold hbind at 1. rewrite A1.
  pose proof (ext_pos _ _ A2 Hn) as Hn1. destruct (asarray_opt_ext s1 fields Hn1) as (s2 & B1 & B2); [destruct fields; cbn in *; auto; eapply ext_ok; eauto|]. unfold hbind. rewrite B1. cbn [snd lift]. f_equal.
  - destruct fields as [x|]; cbn [option_map]; [|reflexivity]. now rewrite (ext_contents _ _ _ A2 Of).
  - rewrite map_map. apply map_ext. intros [x|]; reflexivity.
Qed.
End More.
