(** Inputs that the functions of cad.py refuse, for any arithmetic. *)
From Coq Require Import ZArith List Bool Lia.
From Verif Require Import Num Loop ModelBspline ModelBSp ModelNurbs ModelIga ModelRemove ModelTransform ModelCad.
Import ListNotations.
Local Open Scope Z_scope.

Definition refused {A : Type} (r : res A) : Prop := r = Raise AssertionError.
Lemma assert_false {A : Type} b (r : res A) : b = false -> refused (assert b ;;; r).
Proof. intros ->. reflexivity. Qed.
Lemma assert_or {A : Type} b (r : res A) : (b = true -> refused r) -> refused (assert b ;;; r).
Proof. destruct b; cbn; auto. reflexivity. Qed.

Section Refuse.
Variable N : Num.
Variables (junk : Z -> N) (junk2 : Z -> Z -> N).

(** Corner arrays of the wrong shape. *)
Lemma shape_ne a b : a <> b -> shape_eqb a b = false.
Proof.
  revert b. induction a as [|x a IH]; intros [|y b] H; cbn; auto; [congruence|].
  destruct (x =? y) eqn:E; cbn; auto. apply IH. apply Z.eqb_eq in E. congruence.
Qed.
Lemma linear_refused P : removelast (nd_shape P) <> [2] -> refused (linear (N:=N) junk (Some P)).
Proof. intros H. unfold linear. rewrite shape_ne by auto. reflexivity. Qed.
Lemma bilinear_refused P : removelast (nd_shape P) <> [2; 2] -> refused (bilinear (N:=N) junk (Some P)).
Proof. intros H. unfold bilinear. rewrite shape_ne by auto. reflexivity. Qed.
Lemma trilinear_refused P : removelast (nd_shape P) <> [2; 2; 2] -> refused (trilinear (N:=N) junk (Some P)).
Proof. intros H. unfold trilinear. rewrite shape_ne by auto. reflexivity. Qed.

(** Objects of the wrong dimension. *)
Lemma compat_refused (nrbs : list (nurbs N)) axes A B : In A nrbs -> In B nrbs -> n_dim A <> n_dim B -> refused (compat junk junk2 nrbs axes).
Proof.
  intros HA HB H. unfold compat. destruct nrbs as [|x [|y l]].
  - destruct HA.
  - destruct HA as [<-|[]], HB as [<-|[]]. congruence.
  - cbn [length Nat.ltb Nat.leb hd]. apply assert_false. destruct (forallb _ _) eqn:E; auto. exfalso. rewrite forallb_forall in E.
    pose proof (E A HA) as E1. pose proof (E B HB) as E2. apply Z.eqb_eq in E1, E2. congruence.
Qed.
Lemma extrude_refused (nrb : nurbs N) d ax : n_dim nrb > 2 -> refused (extrude junk nrb d ax).
Proof. intros H. apply assert_false. apply Z.leb_gt. lia. Qed.
Lemma revolve_refused ns nc nt nq na n2 nh np (nrb : nurbs N) point ax ang : n_dim nrb > 2 -> refused (revolve ns nc nt nq na n2 nh np junk junk2 nrb point ax ang).
Proof. intros H. apply assert_false. apply Z.leb_gt. lia. Qed.
Lemma ruled_refused (A B : nurbs N) : n_dim A <> n_dim B \/ n_dim A > 2 -> refused (ruled junk junk2 A B).
Proof.
  intros H. unfold ruled. apply assert_or. intros E. apply Z.eqb_eq in E. apply assert_false. apply Z.leb_gt. lia.
Qed.
Lemma sweep_refused (sec tra : nurbs N) : n_dim sec > 2 \/ n_dim tra <> 1 -> refused (sweep junk sec tra).
Proof.
  intros H. unfold sweep. apply assert_or. intros E. apply andb_true_iff in E. destruct E as [_ E]. apply Z.leb_le in E.
  apply assert_false. apply Z.eqb_neq. lia.
Qed.
Lemma coons_refused junk3 junkS (A B C D : nurbs N) : n_dim A <> 1 \/ n_dim B <> 1 \/ n_dim C <> 1 \/ n_dim D <> 1 -> refused (coons junk junk2 junk3 junkS A B C D).
Proof.
  intros H. unfold coons. apply assert_or. intros E. apply andb_true_iff in E. destruct E as [E1 E2]. apply Z.eqb_eq in E1, E2.
  apply assert_false. apply andb_false_iff. rewrite !Z.eqb_neq. lia.
Qed.
Lemma join_refused nq (A B : nurbs N) ax : n_dim A <> n_dim B \/ ~ 0 <= ax < n_dim A -> refused (join nq junk junk2 A B ax).
Proof.
  intros H. unfold join. apply assert_or. intros E. apply Z.eqb_eq in E. apply assert_false. apply andb_false_iff. rewrite Z.leb_gt, Z.ltb_ge. lia.
Qed.

(** grid: the entry of an argument that stands for axis i of dim. *)
Definition entry_at (a : zarg) (i : nat) (k : Z) : Prop := match a with ZScal x => x = k | ZList l => nth_error l i = Some k end.
Definition wrong_len (a : zarg) (dim : nat) : Prop := match a with ZScal _ => False | ZList l => length l <> dim end.
Lemma zexpand_cases dim a : (zexpand dim a = Raise AssertionError) \/ (exists l, zexpand dim a = Ok l /\ length l = dim /\ ~ wrong_len a dim /\
   forall i k, (i < dim)%nat -> entry_at a i k -> nth_error l i = Some k).
Proof.
  destruct a as [k|l]; cbn.
  - right. eexists. split; [reflexivity|]. split; [apply repeat_length|]. split; [tauto|]. intros i x Hi ->. apply nth_error_repeat. exact Hi.
  - destruct (Nat.eqb (length l) dim) eqn:E; cbn; [right|left; reflexivity]. apply Nat.eqb_eq in E. exists l. split; [reflexivity|]. auto.
Qed.
Lemma nth_error_combine {A B : Type} (l : list A) (m : list B) i a b : nth_error l i = Some a -> nth_error m i = Some b -> nth_error (combine l m) i = Some (a, b).
Proof.
  revert l m. induction i as [|i IH]; intros [|x l] [|y m] H1 H2; cbn in *; try discriminate; [congruence|auto].
Qed.
Lemma forallb_nth {A : Type} (f : A -> bool) l i x : nth_error l i = Some x -> f x = false -> forallb f l = false.
Proof.
  intros H F. destruct (forallb f l) eqn:E; auto. rewrite forallb_forall in E. rewrite (E x) in F; [discriminate|]. apply (nth_error_In l i). exact H.
Qed.
Definition bad_axis (degree : zarg) (cont : option zarg) (dim i : nat) : Prop :=
  (exists p, entry_at degree i p /\ p <= 0) \/
  (exists c p k, cont = Some c /\ entry_at degree i p /\ entry_at c i k /\ ~ - p <= k < p).
Lemma grid_refused shape degree cont limits wrap :
  (~ (1 <= length shape <= 3)%nat \/ wrong_len degree (length shape) \/ (exists c, cont = Some c /\ wrong_len c (length shape)) \/
   match limits with LimOne _ _ => False | LimList l => length l <> length shape end \/
   match wrap with WrapOne _ => False | WrapList l => length l <> length shape end \/
   exists i, (i < length shape)%nat /\ bad_axis degree cont (length shape) i) ->
  refused (grid (N:=N) junk shape degree cont limits wrap).
Proof.
  intros H. unfold grid. cbv zeta. set (dim := length shape) in *. apply assert_or. intros E. apply andb_true_iff in E. destruct E as [E1 E2]. apply Z.leb_le in E1, E2.
  destruct (zexpand_cases dim degree) as [E|(D & E & LD & ND & HD)]; rewrite E; [reflexivity|]. cbn [bind].
  apply assert_or. intros PD.
  assert (CC : match cont with None => Ok (map (fun p => p - 1) D) | Some c => zexpand dim c end = Raise AssertionError \/
     exists Cs, match cont with None => Ok (map (fun p => p - 1) D) | Some c => zexpand dim c end = Ok Cs /\ length Cs = dim /\
       forall c, cont = Some c -> ~ wrong_len c dim /\ forall i k, (i < dim)%nat -> entry_at c i k -> nth_error Cs i = Some k).
  { destruct cont as [c|].
    - destruct (zexpand_cases dim c) as [E'|(l & E' & L & NL & HL)]; [left; exact E'|right]. exists l. split; [exact E'|]. split; [exact L|]. intros c' [= <-]. auto.
    - right. eexists. split; [reflexivity|]. split; [rewrite map_length; exact LD|]. intros c [=]. }
  destruct CC as [E'|(Cs & E' & LC & HC)]; rewrite E'; [reflexivity|]. cbn [bind].
  apply assert_or. intros P1. apply assert_or. intros P2.
  destruct limits as [la lb|ll]; [|destruct (Nat.eqb (length ll) dim) eqn:EL; [|reflexivity]; apply Nat.eqb_eq in EL]; cbn [assert bind];
  (destruct wrap as [wb|wl]; [|destruct (Nat.eqb (length wl) dim) eqn:EW; [|reflexivity]; apply Nat.eqb_eq in EW]; cbn [assert bind]; exfalso).
  all: destruct H as [H|[H|[(c & Hc & H)|[H|[H|(i & Hi & [(p & Hp & Np)|(c & p & k & -> & Hp & Hk & Nk)])]]]]]; try lia; try tauto;
   [exact (proj1 (HC c Hc) H)
   |pose proof (HD i p Hi Hp) as Q; assert (X : forallb (fun p : Z => 0 <? p) D = false) by (apply (forallb_nth _ D i p Q), Z.ltb_ge; lia); congruence
   |pose proof (HD i p Hi Hp) as Q; pose proof (proj2 (HC c eq_refl) i k Hi Hk) as Q2;
    pose proof (nth_error_combine D Cs i p k Q Q2) as Q3;
    set (norm := fun pc : Z * Z => if snd pc <? 0 then snd pc + fst pc else snd pc) in *;
    pose proof (map_nth_error norm i _ Q3) as Q4; pose proof (nth_error_combine D _ i p _ Q Q4) as Q5; unfold norm in Q4, Q5; cbn [fst snd] in Q4, Q5; fold norm in Q4, Q5;
    destruct (Z.ltb_spec k 0);
    [assert (X : forallb (fun c => 0 <=? c) (map norm (combine D Cs)) = false) by (apply (forallb_nth _ _ i _ Q4), Z.leb_gt; lia); congruence
    |assert (X : forallb (fun pc => snd pc <? fst pc) (combine D (map norm (combine D Cs))) = false) by (apply (forallb_nth _ _ i _ Q5), Z.ltb_ge; cbn [fst snd]; lia); congruence]].
Qed.

(** cad.refine *)
Lemma foldM_fails_or {A B : Type} (r : res A) (f : A -> res B) : (forall x, exists e, f x = Raise e) -> exists e, bind r f = Raise e.
Proof. intros H. destruct r; cbn; eauto. Qed.
Lemma zseq_len n k : length (zseq n k) = n.
Proof. revert k. induction n; intros k; cbn; auto. Qed.
Lemma refine_refused (nrb : nurbs N) factor degree cont :
  (exists l, degree = Some l /\ (length l <> length (n_axes nrb) \/ In (Some 0) l \/ exists k, k < 0 /\ In (Some k) l)) ->
  exists e, cad_refine junk junk2 nrb factor degree cont = Raise e.
Proof.
  intros (l & -> & H). unfold cad_refine. cbv zeta. apply foldM_fails_or. intros nrb'. unfold arg_list.
  set (dflt := map _ _). assert (LD : length dflt = length (n_axes nrb)) by (unfold dflt; rewrite map_length, zseq_len; reflexivity).
  destruct (Nat.eqb (length l) (length dflt)) eqn:E; [|eexists; reflexivity]. apply Nat.eqb_eq in E. rewrite LD in E. cbn [assert bind].
  assert (X : exists k, k <= 0 /\ In (Some k) l) by (destruct H as [H|[H|(k & Hk & H)]]; [lia|exists 0; split; [lia|exact H]|exists k; split; [lia|exact H]]).
  destruct X as (k & Hk & Hin). apply In_nth_error in Hin. destruct Hin as [i Hi].
  assert (Li : (i < length dflt)%nat) by (rewrite LD, <- E; apply nth_error_Some; congruence).
  destruct (nth_error dflt i) as [d|] eqn:Ed; [|apply nth_error_None in Ed; lia].
  pose proof (nth_error_combine l dflt i _ _ Hi Ed) as Q.
  rewrite (forallb_nth (fun p => 0 <? p) _ i k); [eexists; reflexivity| |apply Z.ltb_ge; exact Hk].
  apply (map_nth_error (fun t => match fst t with Some x => x | None => snd t end) i _ Q).
Qed.
Lemma refine_refused_factor (nrb : nurbs N) factor degree cont :
  (exists l, factor = Some l /\ (length l <> length (n_axes nrb) \/
     exists k, k <= 0 /\ (In (Some (FacAll k)) l \/ exists f, In (Some (FacList f)) l /\ In k f))) ->
  exists e, cad_refine junk junk2 nrb factor degree cont = Raise e.
Proof.
  intros (l & -> & H). unfold cad_refine. cbv zeta. apply foldM_fails_or. intros nrb1. apply foldM_fails_or. intros deg. apply foldM_fails_or. intros _.
  apply foldM_fails_or. intros nrb2. unfold arg_list at 1.
  set (dflt := map (fun _ => FacAll 1) _). assert (LD : length dflt = length (n_axes nrb)) by (unfold dflt; rewrite map_length, zseq_len; reflexivity).
  destruct (Nat.eqb (length l) (length dflt)) eqn:E; [|eexists; reflexivity]. apply Nat.eqb_eq in E. rewrite LD in E. cbn [assert bind].
  destruct H as [H|(k & Hk & H)]; [lia|].
  assert (X : exists f, In (Some f) l /\ pos_fact f = false).
  { destruct H as [H|(f & Hf & Hin)]; [exists (FacAll k); split; [exact H|cbn; apply Z.ltb_ge; exact Hk]|].
    exists (FacList f). split; [exact Hf|]. cbn. apply In_nth_error in Hin. destruct Hin as [i Hi]. apply (forallb_nth _ f i k Hi), Z.ltb_ge, Hk. }
  destruct X as (f & Hf & NP). apply In_nth_error in Hf. destruct Hf as [i Hi].
  assert (Li : (i < length dflt)%nat) by (rewrite LD, <- E; apply nth_error_Some; congruence).
  destruct (nth_error dflt i) as [d|] eqn:Ed; [|apply nth_error_None in Ed; lia].
  pose proof (nth_error_combine l dflt i _ _ Hi Ed) as Q.
  rewrite (forallb_nth pos_fact _ i f); [eexists; reflexivity| |exact NP].
  apply (map_nth_error (fun t => match fst t with Some x => x | None => snd t end) i _ Q).
Qed.
End Refuse.
