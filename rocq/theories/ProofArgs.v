(** cad.grid and cad.refine and the arrays of the caller. *)
From Coq Require Import ZArith List Bool Lia.
From Verif Require Import Num Loop ModelNurbs ModelIga ModelRemove ModelCad ModelArgs SpecArgs.
Import ListNotations.
Local Open Scope Z_scope.

Lemma zexpand_list dim a l : zexpand dim a = Ok l -> zexpand dim (ZList l) = Ok l /\ length l = dim.
Proof.
  destruct a as [k|v]; cbn.
  - intros E. injection E as <-. rewrite repeat_length, Nat.eqb_refl. auto.
  - destruct (Nat.eqb_spec (length v) dim); cbn; [|discriminate]. intros E. injection E as <-. apply Nat.eqb_eq in e. rewrite e. apply Nat.eqb_eq in e. auto.
Qed.

Definition adj (degree l : list Z) : list Z := map (fun pc => if snd pc <? 0 then snd pc + fst pc else snd pc) (combine degree l).
Lemma adj_len degree l : length degree = length l -> length (adj degree l) = length l.
Proof. intros H. unfold adj. rewrite map_length, combine_length. lia. Qed.
Lemma adj_id degree : forall l, length degree = length l -> forallb (fun c => 0 <=? c) l = true -> adj degree l = l.
Proof.
  unfold adj. induction degree as [|p degree IH]; intros [|c l] H F; cbn in *; try discriminate; auto.
  apply andb_true_iff in F as [F1 F2]. rewrite IH by (auto; lia). destruct (Z.ltb_spec c 0); [|reflexivity]. apply Z.leb_le in F1. lia.
Qed.

Section Grid.
Context {N : Num}.
Variable junk : Z -> N.

(** grid after the expansion of its arguments *)
Lemma grid_expanded sh d deg c cont limits wrap : (1 <= length sh <= 3)%nat -> zexpand (length sh) d = Ok deg -> forallb (fun p => 0 <? p) deg = true ->
  match c with None => Ok (map (fun p => p - 1) deg) | Some c => zexpand (length sh) c end = Ok cont ->
  grid junk sh d c limits wrap =
  (assert (forallb (fun c => 0 <=? c) (adj deg cont)) ;;; grid junk sh (ZList deg) (Some (ZList (adj deg cont))) limits wrap).
Proof.
  intros Hs Hd Hp Hc. assert (L1 : length deg = length sh) by (apply (zexpand_list _ _ _ Hd)).
  assert (L2 : length cont = length sh).
  { destruct c as [c|]; [apply (zexpand_list _ _ _ Hc)|]. injection Hc as <-. rewrite map_length. exact L1. }
  unfold grid. destruct (Z.leb_spec 1 (Z.of_nat (length sh))); [|lia]. destruct (Z.leb_spec (Z.of_nat (length sh)) 3); [|lia]. cbn [andb assert bind].
  rewrite Hd. rewrite (proj1 (zexpand_list _ _ _ Hd)). cbn [bind]. rewrite Hp. cbn [assert bind]. rewrite Hc. cbn [bind].
  fold (adj deg cont). destruct (forallb (fun c0 => 0 <=? c0) (adj deg cont)) eqn:F; cbn [assert bind]; [|reflexivity].
  assert (EA : zexpand (length sh) (ZList (adj deg cont)) = Ok (adj deg cont)) by (cbn; rewrite adj_len by lia; rewrite L2, Nat.eqb_refl; reflexivity).
  rewrite EA. cbn [bind]. fold (adj deg (adj deg cont)).
  rewrite (adj_id deg (adj deg cont)); [|rewrite adj_len; lia|exact F]. rewrite F. reflexivity.
Qed.
Lemma grid_bad_dim sh d c limits wrap : ~ (1 <= length sh <= 3)%nat -> grid junk sh d c limits wrap = Raise AssertionError.
Proof.
  intros H. unfold grid. destruct (Z.leb_spec 1 (Z.of_nat (length sh))); [destruct (Z.leb_spec (Z.of_nat (length sh)) 3)|]; cbn; try reflexivity. lia.
Qed.

(** An argument that is the same array as the shape *)
Lemma set_other (m : mem zarg) (x : iarg) l a : x <> IRef l -> icontents (mset m l a) x = icontents m x.
Proof. intros H. destruct x as [l'|v]; cbn; auto. unfold mset. destruct (Z.eqb_spec l' l) as [->|]; congruence. Qed.
Lemma iarg_dec (x y : iarg) : (exists l, x = IRef l /\ y = IRef l) \/ ((exists v, x = IVal v) \/ (exists v, y = IVal v)) \/ (exists l l', x = IRef l /\ y = IRef l' /\ l <> l').
Proof. destruct x as [l|v], y as [l'|v']; eauto 6. destruct (Z.eq_dec l l') as [->|]; eauto 8. Qed.

Lemma zexpand_one k m l : m = ZScal k \/ m = ZList [k] -> zexpand 1 m = Ok l -> l = [k].
Proof. intros [-> | ->]; cbn; congruence. Qed.

(** What the shape and its array become *)
Lemma h_shape_eq shape m :
  (exists k, icontents m shape = ZScal k /\ h_shape shape m = (match shape with IRef l => mset m l (ZList [k]) | IVal _ => m end, Ok [k])) \/
  (exists l, icontents m shape = ZList l /\ h_shape shape m = (m, assert ((1 <=? Z.of_nat (length l)) && (Z.of_nat (length l) <=? 3)) ;;; Ok l)).
Proof.
  unfold h_shape, mbind, iread, iwrite, mlift. destruct (icontents m shape) as [k|l] eqn:E; [left; exists k|right; exists l]; split; auto.
Qed.
(** Reading an argument after that: the same numbers *)
Lemma zexpand_after shape (x : iarg) m k : icontents m shape = ZScal k ->
  zexpand 1 (icontents (match shape with IRef l => mset m l (ZList [k]) | IVal _ => m end) x) = zexpand 1 (icontents m x).
Proof.
  intros E. destruct shape as [l|v]; [|reflexivity]. destruct x as [l'|v']; [|reflexivity]. cbn in *. unfold mset. destruct (Z.eqb_spec l' l) as [->|]; [|reflexivity].
  rewrite E. reflexivity.
Qed.

Definition cexpand (dim : nat) (deg : list Z) (c : option zarg) : res (list Z) :=
  match c with None => Ok (map (fun p => p - 1) deg) | Some c => zexpand dim c end.

(** the rest of h_grid, the memory being m1 after the shape *)
Definition rest (sh : list Z) (shape degree : iarg) (continuity : option iarg) (limits : limarg (N:=N)) (wrap : wraparg) : M zarg (nurbs N) :=
  do d <- iread degree;
  do deg <- mlift (zexpand (length sh) d);
  mlift (assert (forallb (fun p => 0 <? p) deg)) ;!
  do cont <- h_continuity (length sh) deg continuity;
  mlift (assert (forallb (fun c => 0 <=? c) cont)) ;!
  do a <- iread shape;
  mlift (grid junk (zlist a) (ZList deg) (Some (ZList cont)) limits wrap).

Definition wrote (dim : nat) (m m' : mem zarg) (degree : iarg) (continuity : option iarg) : Prop :=
  (forall l, m' l = m l) \/
  exists l v deg, continuity = Some (IRef l) /\ m l = ZList v /\ length v = dim /\ zexpand dim (icontents m degree) = Ok deg /\
    m' l = ZList (adj deg v) /\ forall l', l' <> l -> m' l' = m l'.

Lemma minus_one deg : forallb (fun p => 0 <? p) deg = true -> adj deg (map (fun p => p - 1) deg) = map (fun p => p - 1) deg.
Proof.
  intros H. apply adj_id; [rewrite map_length; reflexivity|]. rewrite forallb_forall in *. intros c Hc. apply in_map_iff in Hc as (p & <- & Hp).
  apply H in Hp. apply Z.ltb_lt in Hp. apply Z.leb_le. lia.
Qed.

Definition after_cont (m : mem zarg) (deg l : list Z) (c : iarg) : mem zarg :=
  match c, icontents m c with IRef l0, ZList _ => mset m l0 (ZList (adj deg l)) | _, _ => m end.
Lemma h_cont_eq dim deg c m : h_continuity dim deg (Some c) m =
  match zexpand dim (icontents m c) with Raise e => (m, Raise e) | Ok l => (after_cont m deg l c, Ok (adj deg l)) end.
Proof.
  unfold h_continuity, mbind, iread, mlift, iwrite, after_cont. destruct (zexpand dim (icontents m c)) as [l|e]; [|reflexivity].
  fold (adj deg l). destruct c as [l0|a]; cbn [icontents]; [destruct (m l0)|destruct a]; reflexivity.
Qed.
(** [rest] in one piece *)
Lemma rest_steps sh shape degree continuity limits wrap m : rest sh shape degree continuity limits wrap m =
  match zexpand (length sh) (icontents m degree) with
  | Raise e => (m, Raise e)
  | Ok deg =>
      if forallb (fun p => 0 <? p) deg then
        let '(m', r) := h_continuity (length sh) deg continuity m in
        match r with
        | Raise e => (m', Raise e)
        | Ok cont => if forallb (fun c => 0 <=? c) cont then (m', grid junk (zlist (icontents m' shape)) (ZList deg) (Some (ZList cont)) limits wrap) else (m', Raise AssertionError)
        end
      else (m, Raise AssertionError)
  end.
Proof.
  unfold rest, mbind, iread, mlift. destruct (zexpand (length sh) (icontents m degree)) as [deg|e]; [|reflexivity].
  destruct (forallb (fun p => 0 <? p) deg); [|reflexivity]. cbn [assert].
  destruct (h_continuity (length sh) deg continuity m) as [m' [cont|e]]; [|reflexivity]. destruct (forallb (fun c => 0 <=? c) cont); reflexivity.
Qed.

Lemma rest_eq sh shape degree continuity limits wrap m : (1 <= length sh <= 3)%nat -> zlist (icontents m shape) = sh ->
  (forall l, shape = IRef l -> continuity <> Some (IRef l)) ->
  snd (rest sh shape degree continuity limits wrap m) = grid junk sh (icontents m degree) (octs m continuity) limits wrap.
Proof.
  intros Hs Es Hal. rewrite rest_steps.
  destruct (zexpand (length sh) (icontents m degree)) as [deg|e] eqn:Ed.
  2:{ cbn [snd]. unfold grid. destruct (Z.leb_spec 1 (Z.of_nat (length sh))); [|lia]. destruct (Z.leb_spec (Z.of_nat (length sh)) 3); [|lia].
      cbn [andb assert bind]. rewrite Ed. reflexivity. }
  destruct (forallb (fun p => 0 <? p) deg) eqn:Hp.
  2:{ cbn [snd]. unfold grid. destruct (Z.leb_spec 1 (Z.of_nat (length sh))); [|lia]. destruct (Z.leb_spec (Z.of_nat (length sh)) 3); [|lia].
      cbn [andb assert bind]. rewrite Ed. cbn [bind]. rewrite Hp. reflexivity. }
  destruct continuity as [c|].
  2:{ cbn [h_continuity]. unfold mlift. cbn [octs].
      rewrite (grid_expanded sh _ deg None (map (fun p => p - 1) deg)) by auto. rewrite minus_one by exact Hp.
      destruct (forallb (fun c => 0 <=? c) _) eqn:F; cbn [assert bind snd]; [|reflexivity]. rewrite Es. reflexivity. }
  rewrite h_cont_eq. cbn [octs]. destruct (zexpand (length sh) (icontents m c)) as [l|e] eqn:Ec.
  2:{ cbn [snd]. unfold grid. destruct (Z.leb_spec 1 (Z.of_nat (length sh))); [|lia]. destruct (Z.leb_spec (Z.of_nat (length sh)) 3); [|lia].
      cbn [andb assert bind]. rewrite Ed. cbn [bind]. rewrite Hp. cbn [assert bind]. rewrite Ec. reflexivity. }
  rewrite (grid_expanded sh _ deg (Some (icontents m c)) l) by auto.
  destruct (forallb (fun c => 0 <=? c) (adj deg l)) eqn:F; cbn [assert bind snd]; [|reflexivity].
  replace (zlist (icontents (after_cont m deg l c) shape)) with sh; [reflexivity|].
  rewrite <- Es. f_equal. unfold after_cont. destruct c as [l0|a]; [|reflexivity]. destruct (icontents m (IRef l0)); [reflexivity|].
  rewrite set_other; [reflexivity|]. intros Q. exact (Hal l0 Q eq_refl).
Qed.

Lemma adj_neg deg : forall v, length deg = length v -> (exists k, In k v /\ k < 0) \/ adj deg v = v.
Proof.
  intros v H. destruct (forallb (fun c => 0 <=? c) v) eqn:F; [right; apply adj_id; auto|left].
  clear H. induction v as [|c v IH]; [discriminate|]. cbn in F. destruct (Z.leb_spec 0 c); [destruct (IH F) as (k & I & L); exists k; cbn; auto|exists c; cbn; auto].
Qed.

(** The result, and what is written, when the array of the shape is not also given as continuity *)
Theorem grid_result shape degree continuity limits wrap m : (forall l, shape = IRef l -> continuity <> Some (IRef l)) ->
  snd (h_grid junk shape degree continuity limits wrap m) = grid junk (zlist (icontents m shape)) (icontents m degree) (octs m continuity) limits wrap.
Proof.
  intros Hal. change (h_grid junk shape degree continuity limits wrap) with (do sh <- h_shape shape; rest sh shape degree continuity limits wrap).
  unfold mbind at 1. destruct (h_shape_eq shape m) as [(k & Ek & ->)|(l & El & ->)].
  - set (m1 := match shape with IRef l => mset m l (ZList [k]) | IVal _ => m end).
    assert (E1 : zlist (icontents m1 shape) = [k]).
    { unfold m1. destruct shape as [l|v]; cbn in *; [unfold mset; rewrite Z.eqb_refl; reflexivity|rewrite Ek; reflexivity]. }
    assert (R := rest_eq [k] shape degree continuity limits wrap m1 ltac:(cbn; lia) E1 Hal).
    rewrite R. rewrite Ek. cbn [zlist].
    assert (Ed : zexpand 1 (icontents m1 degree) = zexpand 1 (icontents m degree)) by (apply zexpand_after; exact Ek).
    assert (Eo : octs m1 continuity = octs m continuity).
    { destruct continuity as [c|]; [|reflexivity]. cbn. unfold m1. destruct shape as [l|v]; [|reflexivity]. rewrite set_other; [reflexivity|]. intros ->. exact (Hal l eq_refl eq_refl). }
    rewrite Eo. unfold grid. cbn [length Z.of_nat]. cbn [andb assert bind]. rewrite Ed. reflexivity.
  - rewrite El. cbn [zlist]. destruct (Z.leb_spec 1 (Z.of_nat (length l))); [destruct (Z.leb_spec (Z.of_nat (length l)) 3)|]; cbn [andb assert bind].
    + apply rest_eq; [lia|rewrite El; reflexivity|exact Hal].
    + cbn [snd]. rewrite grid_bad_dim by lia. reflexivity.
    + cbn [snd]. rewrite grid_bad_dim by lia. reflexivity.
Qed.

Lemma rest_wrote sh shape degree continuity limits wrap m : wrote (length sh) m (fst (rest sh shape degree continuity limits wrap m)) degree continuity.
Proof.
  rewrite rest_steps. destruct (zexpand (length sh) (icontents m degree)) as [deg|e] eqn:Ed; [|left; reflexivity].
  destruct (forallb _ deg); [|left; reflexivity]. destruct continuity as [c|].
  2:{ cbn [h_continuity]. unfold mlift. destruct (forallb _ _); left; reflexivity. }
  rewrite h_cont_eq. destruct (zexpand (length sh) (icontents m c)) as [l|e] eqn:Ec; [|left; reflexivity].
  assert (W : wrote (length sh) m (after_cont m deg l c) degree (Some c)).
  { unfold after_cont. destruct c as [l0|a]; [|left; reflexivity]. destruct (icontents m (IRef l0)) as [k|v] eqn:Ev; [left; reflexivity|].
    assert (v = l /\ length v = length sh) as [<- Lv] by (cbn in Ec; destruct (Nat.eqb_spec (length v) (length sh)); cbn in Ec; [split; congruence|discriminate]).
    right. exists l0, v, deg. unfold mset. rewrite Z.eqb_refl.
    repeat (split; [auto|]). intros l' Hl'. destruct (Z.eqb_spec l' l0); [contradiction|reflexivity]. }
  destruct (forallb _ (adj deg l)); exact W.
Qed.

Theorem grid_writes shape degree continuity limits wrap m l : fst (h_grid junk shape degree continuity limits wrap m) l <> m l ->
  (shape = IRef l /\ exists k, m l = ZScal k) \/ (continuity = Some (IRef l) /\ exists v k, m l = ZList v /\ In k v /\ k < 0).
Proof.
  change (h_grid junk shape degree continuity limits wrap) with (do sh <- h_shape shape; rest sh shape degree continuity limits wrap).
  unfold mbind at 1. intros H.
  assert (W : forall sh m1, wrote (length sh) m1 (fst (rest sh shape degree continuity limits wrap m1)) degree continuity ->
    fst (rest sh shape degree continuity limits wrap m1) l <> m1 l -> continuity = Some (IRef l) /\ exists v k, m1 l = ZList v /\ In k v /\ k < 0).
  { intros sh m1 [W|(l0 & v & deg & Ec & Ev & Lv & Ed & Ew & Eo)] Hn; [rewrite W in Hn; congruence|].
    destruct (Z.eq_dec l l0) as [->|Hne]; [|rewrite Eo in Hn by exact Hne; congruence]. split; [exact Ec|]. exists v.
    destruct (adj_neg deg v) as [(k & I & L)|E]; [pose proof (proj2 (zexpand_list _ _ _ Ed)); lia|exists k; auto|].
    rewrite Ew, E, Ev in Hn. congruence. }
  destruct (h_shape_eq shape m) as [(k & Ek & E)|(v & El & E)]; rewrite E in H.
  - destruct shape as [l1|a].
    + cbn in Ek. destruct (Z.eq_dec l l1) as [->|Hne]; [left; eauto|]. right.
      assert (E1 : mset m l1 (ZList [k]) l = m l) by (unfold mset; destruct (Z.eqb_spec l l1); congruence).
      destruct (W [k] (mset m l1 (ZList [k])) (rest_wrote _ _ _ _ _ _ _)) as (Hc & v & k' & Ev & I); [rewrite E1; exact H|].
      rewrite E1 in Ev. eauto.
    + right. destruct (W [k] m (rest_wrote _ _ _ _ _ _ _) H) as (Hc & v & k' & Ev & I). eauto.
  - right. destruct (assert _); cbn [bind] in H; [|cbn in H; congruence].
    destruct (W v m (rest_wrote _ _ _ _ _ _ _) H) as (Hc & w & k' & Ev & I). eauto.
Qed.
End Grid.

Section Refine.
Context {N : Num}.
Variable junk : Z -> N.
Variable junk2 : Z -> Z -> N.
Notation omem := (mem (list (option fact))).

Lemma filled {A : Type} (l : list (option A)) : forall dflt, length l = length dflt -> ~ In None l ->
  map Some (map (fun t => match fst t with Some x => x | None => snd t end) (combine l dflt)) = l.
Proof.
  induction l as [|x l IH]; intros [|d dflt] H Hn; cbn in *; try discriminate; auto. rewrite IH; auto. destruct x; auto. exfalso; auto.
Qed.
Lemma none_dec {A : Type} (l : list (option A)) : In None l \/ ~ In None l.
Proof. induction l as [|[x|] l IH]; cbn; auto. destruct IH; [auto|right; intros [Q|Q]; [discriminate|auto]]. Qed.
Lemma h_arg_writes x dflt (m : omem) l : fst (h_arg x dflt m) l = m l \/ (x = ORef l /\ In None (m l)).
Proof.
  unfold h_arg. destruct (arg_list (ocontents m x) dflt) as [r|e] eqn:E; [|left; reflexivity]. destruct x as [|l0|v]; try (left; reflexivity).
  cbn in *. unfold mset. destruct (Z.eqb_spec l l0) as [->|]; [|left; reflexivity]. destruct (none_dec (m l0)) as [I|I]; [right; auto|left].
  destruct (Nat.eqb_spec (length (m l0)) (length dflt)); cbn in E; [|discriminate]. injection E as <-. apply filled; auto.
Qed.
Lemma h_arg_other x dflt (m : omem) y : (forall l, x = ORef l -> y <> ORef l) -> ocontents (fst (h_arg x dflt m)) y = ocontents m y.
Proof.
  intros H. destruct y as [|l|v]; auto. cbn. f_equal. unfold h_arg. destruct (arg_list _ _); [|reflexivity]. destruct x as [|l0|v]; auto. cbn. unfold mset.
  destruct (Z.eqb_spec l l0) as [->|]; [exfalso; exact (H l0 eq_refl eq_refl)|reflexivity].
Qed.
Lemma h_arg_snd x dflt (m : omem) : snd (h_arg x dflt m) = arg_list (ocontents m x) dflt.
Proof. unfold h_arg. destruct (arg_list _ _); reflexivity. Qed.

Lemma as_ints_map l : as_ints (map FacAll l) = Ok l.
Proof. unfold as_ints. induction l as [|k l IH]; cbn; [reflexivity|]. rewrite IH. reflexivity. Qed.
Lemma arg_ints l l' dflt : ints l l' -> arg_list l (map FacAll dflt) = (let* r := arg_list l' dflt in Ok (map FacAll r)).
Proof.
  intros ->. destruct l' as [l'|]; cbn; [|reflexivity]. rewrite !map_length. destruct (Nat.eqb (length l') (length dflt)); cbn; [|reflexivity]. f_equal.
  revert dflt. induction l' as [|[x|] l' IH]; intros [|d dflt]; cbn; auto; f_equal; apply IH.
Qed.

Lemma bind_ok {C A B : Type} (a : M C A) (k : A -> M C B) m : snd (mbind a k m) = match snd (a m) with Ok x => snd (k x (fst (a m))) | Raise e => Raise e end.
Proof. unfold mbind. destruct (a m) as [m' [x|e]]; reflexivity. Qed.

Theorem refine_result nrb factor degree continuity dg ct m :
  (forall l, degree = ORef l -> factor <> ORef l /\ continuity <> ORef l) -> (forall l, factor = ORef l -> continuity <> ORef l) ->
  ints (ocontents m degree) dg -> ints (ocontents m continuity) ct ->
  snd (h_cad_refine junk junk2 nrb factor degree continuity m) = cad_refine junk junk2 nrb (ocontents m factor) dg ct.
Proof.
  intros Hd Hf Id Ic. unfold h_cad_refine, cad_refine.
  rewrite bind_ok. cbn [mlift fst snd]. destruct (foldM _ _ nrb) as [nrb1|e]; [|reflexivity]. cbn [bind].
  rewrite bind_ok, h_arg_snd. rewrite <- (map_map (fun ax => a_deg (axz nrb1 ax)) FacAll). rewrite (arg_ints _ dg) by exact Id.
  set (m1 := fst (h_arg degree _ m)).
  assert (E1 : forall y, (forall l, degree = ORef l -> y <> ORef l) -> ocontents m1 y = ocontents m y) by (intros y Hy; apply h_arg_other; exact Hy).
  destruct (arg_list dg _) as [deg|e]; [|reflexivity]. cbn [bind].
  rewrite bind_ok. cbn [mlift fst snd]. rewrite as_ints_map. rewrite bind_ok. cbn [mlift fst snd]. destruct (assert _); [|reflexivity]. cbn [bind].
  rewrite bind_ok. cbn [mlift fst snd]. destruct (foldM _ (combine _ deg) nrb1) as [nrb2|e]; [|reflexivity]. cbn [bind].
  rewrite bind_ok, h_arg_snd. rewrite E1 by (intros l Q; apply (Hd l Q)).
  set (m2 := fst (h_arg factor _ m1)).
  assert (E2 : ocontents m2 continuity = ocontents m continuity).
  { unfold m2. rewrite h_arg_other by exact Hf. apply E1. intros l Q. apply (Hd l Q). }
  destruct (arg_list (ocontents m factor) _) as [fac|e]; [|reflexivity]. cbn [bind].
  rewrite bind_ok. cbn [mlift fst snd]. destruct (assert _); [|reflexivity]. cbn [bind].
  rewrite bind_ok, h_arg_snd, E2. rewrite <- (map_map (fun _ : Z => -1) FacAll). rewrite (arg_ints _ ct) by exact Ic.
  destruct (arg_list ct _) as [cont|e]; [|reflexivity]. cbn [bind].
  rewrite bind_ok. cbn [mlift fst snd]. rewrite as_ints_map. rewrite bind_ok. cbn [mlift fst snd]. destruct (assert _); [|reflexivity]. cbn [bind].
  rewrite bind_ok. cbn [mlift fst snd]. destruct (assert _); reflexivity.
Qed.

Definition okw (f d c : oarg) (m m' : omem) : Prop := forall l, m' l = m l \/ ((f = ORef l \/ d = ORef l \/ c = ORef l) /\ In None (m l)).
Lemma okw_bind {A B : Type} f d c (a : M (list (option fact)) A) (k : A -> M (list (option fact)) B) m :
  okw f d c m (fst (a m)) -> (forall x m1, okw f d c m1 (fst (k x m1))) -> okw f d c m (fst (mbind a k m)).
Proof.
  intros H1 H2. unfold mbind. destruct (a m) as [m1 [x|e]]; cbn [fst] in *; [|exact H1]. intros l.
  destruct (H2 x m1 l) as [E|(C & I)].
  - rewrite E. apply H1.
  - destruct (H1 l) as [E|X]; [|right; exact X]. rewrite E in I. right. auto.
Qed.
Lemma okw_lift {A : Type} f d c (r : res A) m : okw f d c m (fst (mlift r m)).
Proof. intros l. left. reflexivity. Qed.
Lemma okw_arg f d c x dflt m : x = f \/ x = d \/ x = c -> okw f d c m (fst (h_arg x dflt m)).
Proof. intros H l. destruct (h_arg_writes x dflt m l) as [E|(E & I)]; [auto|right]. split; [|exact I]. destruct H as [-> | [-> | ->]]; auto. Qed.
Theorem refine_writes nrb factor degree continuity m l : fst (h_cad_refine junk junk2 nrb factor degree continuity m) l <> m l ->
  (factor = ORef l \/ degree = ORef l \/ continuity = ORef l) /\ In None (m l).
Proof.
  intros H. assert (W : okw factor degree continuity m (fst (h_cad_refine junk junk2 nrb factor degree continuity m))).
  { unfold h_cad_refine. repeat first [apply okw_bind; [first [apply okw_lift|apply okw_arg; auto]|intros] | apply okw_lift]. }
  destruct (W l); [contradiction|assumption].
Qed.

(** ** A sequence of integers where one integer belongs *)
Lemma in_arg {A : Type} (l : list (option A)) dflt x r : In (Some x) l -> arg_list (Some l) dflt = Ok r -> In x r.
Proof.
  cbn. destruct (Nat.eqb_spec (length l) (length dflt)) as [L|]; cbn; [|discriminate]. intros I E. injection E as <-.
  revert dflt L. induction l as [|y l IH]; intros [|d dflt] L; cbn in *; try lia. destruct I as [->|I]; [left; reflexivity|right; apply IH; auto].
Qed.
Lemma as_ints_seq l f : In (FacList f) l -> exists e, as_ints l = Raise e.
Proof.
  unfold as_ints. induction l as [|y l IH]; intros I; [destruct I|]. cbn [mapM]. destruct I as [->|I]; [eexists; reflexivity|].
  destruct (IH I) as [e E]. destruct y as [k|g]; cbn [bind]; [rewrite E; exists e; reflexivity|eexists; reflexivity].
Qed.
Definition asks_seq (m : omem) (x : oarg) : Prop := exists l f, ocontents m x = Some l /\ In (Some (FacList f)) l.
Lemma h_arg_keeps_seq x y dflt (m : omem) : asks_seq m y -> asks_seq (fst (h_arg x dflt m)) y.
Proof.
  intros (l & f & E & I). unfold h_arg. destruct (arg_list (ocontents m x) dflt) as [r|e] eqn:Er; [|exists l, f; auto]. cbn [fst].
  destruct x as [|lx|v]; [exists l, f; auto| |exists l, f; auto].
  destruct y as [|ly|v]; cbn [ocontents] in *; [discriminate| |exists l, f; auto]. injection E as <-.
  unfold mset. destruct (Z.eqb_spec ly lx) as [->|]; [|exists (m ly), f; split; [cbn [ocontents]; destruct (Z.eqb_spec ly lx); [contradiction|reflexivity]|exact I]]. exists (map Some r), f. split; [cbn [ocontents]; rewrite Z.eqb_refl; reflexivity|].
  apply in_map. apply (in_arg _ _ _ _ I Er).
Qed.
Theorem refine_sequence nrb factor degree continuity m : asks_seq m degree \/ asks_seq m continuity ->
  exists e, snd (h_cad_refine junk junk2 nrb factor degree continuity m) = Raise e.
Proof.
  intros H. unfold h_cad_refine.
  rewrite bind_ok. cbn [mlift fst snd]. destruct (foldM _ _ nrb) as [nrb1|e]; [|eauto].
  rewrite bind_ok, h_arg_snd. set (d0 := map _ _). set (m1 := fst (h_arg degree d0 m)).
  destruct (arg_list (ocontents m degree) d0) as [deg|e] eqn:Ed; [|eauto].
  rewrite bind_ok. cbn [mlift fst snd].
  destruct H as [(l & f & E & I)|H].
  { rewrite E in Ed. destruct (as_ints_seq deg f (in_arg _ _ _ _ I Ed)) as [e Ee]. rewrite Ee. eauto. }
  destruct (as_ints deg) as [deg1|e]; [|eauto].
  rewrite bind_ok. cbn [mlift fst snd]. destruct (assert _); [|eauto].
  rewrite bind_ok. cbn [mlift fst snd]. destruct (foldM _ (combine _ deg1) nrb1) as [nrb2|e]; [|eauto].
  rewrite bind_ok, h_arg_snd. set (f0 := map _ _). set (m2 := fst (h_arg factor f0 m1)).
  assert (H2 : asks_seq m2 continuity) by (apply h_arg_keeps_seq, h_arg_keeps_seq; exact H).
  destruct (arg_list (ocontents m1 factor) f0) as [fac|e]; [|eauto].
  rewrite bind_ok. cbn [mlift fst snd]. destruct (assert _); [|eauto].
  rewrite bind_ok, h_arg_snd. destruct H2 as (l & f & E & I). rewrite E.
  destruct (arg_list (Some l) _) as [cont|e] eqn:Ec; [|eauto].
  rewrite bind_ok. cbn [mlift fst snd]. destruct (as_ints_seq cont f (in_arg _ _ _ _ I Ec)) as [e Ee]. rewrite Ee. eauto.
Qed.
Theorem refine_sequence' nrb factor degree continuity m :
  (exists l f, (ocontents m degree = Some l \/ ocontents m continuity = Some l) /\ In (Some (FacList f)) l) ->
  exists e, snd (h_cad_refine junk junk2 nrb factor degree continuity m) = Raise e.
Proof. intros (l & f & [E|E] & I); apply refine_sequence; [left|right]; exists l, f; auto. Qed.
End Refine.
