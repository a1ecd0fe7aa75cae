(** Control nets, points and vectors. *)
From Coq Require Import ZArith List Bool Lia.
From Verif Require Import Num Loop ModelBspline ModelBSp ModelNurbs ModelCad ModelIo ModelPlot Spec SpecNurbs SpecIo SpecPlot ProofIo ProofIo4 ProofPlot ProofPlot2 ProofPlot3.
Import ListNotations.
Local Open Scope Z_scope.

Section P.
Context {N : Num}.
Lemma next_rev i j : next_to i j -> next_to (rev i) (rev j).
Proof.
  intros [p [d [s [-> ->]]]]. exists (rev s), d, (rev p). rewrite !rev_app_distr. cbn [rev]. rewrite <- !app_assoc. auto.
Qed.
Lemma adjacent_rev i j : adjacent i j -> adjacent (rev i) (rev j).
Proof. intros [H|H]; [left|right]; apply next_rev; auto. Qed.

Lemma cnet_holds (nrb : nurbs N) : holds_points (split3 (points_nd nrb)) (rev (map a_size (n_axes nrb))) (fun l => net_point nrb (rev l)).
Proof.
  unfold split3, holds_points, points_nd, n_shape. cbn [nd_shape nd_get]. rewrite removelast_last. repeat (split; auto).
  intros idx I. unfold at3, net_point, n_points. cbn [nd_get]. rewrite !removelast_last, !last_last. reflexivity.
Qed.
Lemma cnet_shape (nrb : nurbs N) : shape3 (split3 (points_nd nrb)) = rev (map a_size (n_axes nrb)).
Proof. unfold split3, shape3, points_nd, n_shape. cbn [fst nd_shape]. rewrite removelast_last. reflexivity. Qed.
Lemma cnet_joined (nrb : nurbs N) p q : joined (split3 (points_nd nrb)) p q <-> net_joined nrb p q.
Proof.
  unfold joined, net_joined. rewrite cnet_shape. pose proof (cnet_holds nrb) as H. destruct (split3 (points_nd nrb)) as [[x y] z].
  destruct H as [_ [_ [_ H]]]. split.
  - intros [i [j [Hi [Hj [A [-> ->]]]]]]. exists (rev i), (rev j). rewrite !H by auto. apply in_shape_rev in Hi, Hj. rewrite rev_involutive in Hi, Hj.
    split; auto. split; auto. split; [apply adjacent_rev; auto|]. auto.
  - intros [i [j [Hi [Hj [A [-> ->]]]]]]. exists (rev i), (rev j). apply in_shape_rev in Hi, Hj. rewrite !H by auto. rewrite !rev_involutive.
    split; auto. split; auto. split; [apply adjacent_rev; auto|]. auto.
Qed.
Theorem control_net (nrb : nurbs N) : (1 <= length (n_axes nrb) <= 3)%nat -> Forall (fun A => 2 <= a_size A) (n_axes nrb) ->
  (exists P L, myv_lines (p_cwire nrb) = Ok (P, L) /\ forall p q, segment P L p q \/ segment P L q p <-> net_joined nrb p q) /\
  (forall p q, drawn (mpl_lines (p_cwire nrb)) p q \/ drawn (mpl_lines (p_cwire nrb)) q p <-> net_joined nrb p q).
Proof.
  intros Hl Hs. unfold p_cwire.
  assert (L3 : (1 <= length (shape3 (split3 (points_nd nrb))) <= 3)%nat) by (rewrite cnet_shape, rev_length, map_length; auto).
  split.
  - destruct (myv_lines_spec [split3 (points_nd nrb)]) as [P [L [E [_ H]]]]; [discriminate| |].
    + constructor; [|constructor]. split; [|split; auto].
      * unfold split3. do 3 eexists. split; [reflexivity|]. split; reflexivity.
      * rewrite cnet_shape. apply Forall_rev. clear - Hs. induction Hs; cbn; constructor; auto.
    + exists P, L. split; auto. intros p q. rewrite H. split.
      * intros [t [[<-|[]] J]]. apply cnet_joined. auto.
      * intros J. eexists. split; [left; reflexivity|]. apply cnet_joined. auto.
  - intros p q. rewrite mpl_lines_spec by (constructor; auto). split.
    + intros [t [[<-|[]] J]]. apply cnet_joined. auto.
    + intros J. eexists. split; [left; reflexivity|]. apply cnet_joined. auto.
Qed.

Theorem points_spec (P : nd N) sh d : nd_shape P = sh ++ [d] -> sh <> [] ->
  (1 <= d <= 3 -> exists t, p_points P = Ok t /\ holds_points t (rev sh) (fun l => padded d (fun c => nd_get P (rev l ++ [c])))) /\
  (~ 1 <= d <= 3 -> p_points P = Raise AssertionError).
Proof.
  intros E Hsh. unfold p_points, pad3. rewrite E.
  replace (match sh ++ [d] with [] => mkNd [1; 1] (fun _ => nd_get P []) | [s] => mkNd [1; s] (fun l => nd_get P (tl l)) | _ => P end) with P.
  2:{ destruct sh as [|s [|s2 sh]]; [contradiction|reflexivity|reflexivity]. }
  rewrite E, last_last, removelast_last. unfold assert, check. split.
  - intros Hd. replace ((1 <=? d) && (d <=? 3)) with true by (symmetry; apply andb_true_intro; split; apply Z.leb_le; lia). cbn [bind].
    eexists. split; [reflexivity|]. unfold split3, holds_points. cbn [nd_shape nd_get]. rewrite removelast_last. repeat (split; auto).
    intros idx I. unfold at3, padded. cbn [nd_get]. rewrite !last_last. reflexivity.
  - intros Hd. destruct ((1 <=? d) && (d <=? 3)) eqn:B; [|reflexivity]. exfalso. apply Hd. apply andb_true_iff in B. destruct B as [B1 B2]. apply Z.leb_le in B1, B2. lia.
Qed.
(** A single point and a single number. *)
Theorem point_spec (P : nd N) d : nd_shape P = [d] ->
  (1 <= d <= 3 -> exists t, p_points P = Ok t /\ holds_points t [1] (fun l => padded d (fun c => nd_get P [c]))) /\
  (~ 1 <= d <= 3 -> p_points P = Raise AssertionError).
Proof.
  intros E. set (P2 := mkNd (N:=N) [1; d] (fun l => nd_get P (tl l))).
  assert (Ep : p_points P = p_points P2) by (unfold p_points, pad3; rewrite E; reflexivity).
  destruct (points_spec P2 [1] d eq_refl ltac:(discriminate)) as [H1 H2]. rewrite Ep. split; auto. intros Hd. destruct (H1 Hd) as [t [Et Ht]].
  exists t. split; auto. destruct t as [[x y] z]. destruct Ht as [S1 [S2 [S3 H]]]. repeat (split; auto). intros idx I. rewrite H by auto.
  inversion I as [|? i ? is Hi Hn]; subst. inversion Hn; subst. cbn [rev app P2 nd_get tl]. reflexivity.
Qed.
Theorem quiver_spec (P V : nd N) : p_quiver P V = (let* t := p_points P in let* u := p_points V in Ok (t, u)).
Proof. unfold p_quiver, p_points. destruct (pad3 P); cbn [bind]; [|reflexivity]. destruct (pad3 V); reflexivity. Qed.
End P.

(** Arrays of unequal shapes are refused. *)
Lemma shape_eqb_true : forall s1 s2, shape_eqb s1 s2 = true -> s1 = s2.
Proof.
  induction s1 as [|a s1 IH]; intros [|b s2] H; cbn in H; try discriminate; auto.
  apply Bool.andb_true_iff in H. destruct H as [H1 H2]. apply Z.eqb_eq in H1. f_equal; auto.
Qed.
Lemma grid_rejects {N : Num} {A : Type} (move : Z -> A -> A) (parts : xyz N -> list A) (ts : list (xyz N)) x y z :
  In (x, y, z) ts -> (nd_shape x <> nd_shape y \/ nd_shape y <> nd_shape z) -> extract_grid move parts ts = Raise AssertionError.
Proof.
  intros H D. unfold extract_grid. destruct (forallb same_shapes ts) eqn:E; [|reflexivity]. exfalso.
  rewrite forallb_forall in E. specialize (E _ H). cbn [same_shapes] in E. apply Bool.andb_true_iff in E. destruct E as [E1 E2].
  apply shape_eqb_true in E1, E2. destruct D; auto.
Qed.
Theorem myv_rejects {N : Num} (ts : list (xyz N)) x y z : In (x, y, z) ts -> (nd_shape x <> nd_shape y \/ nd_shape y <> nd_shape z) ->
  myv_lines ts = Raise AssertionError /\ myv_polys ts = Raise AssertionError.
Proof. intros H D. split; apply (grid_rejects _ _ ts x y z H D). Qed.
