(** What the plotting backends make of arrays of points. *)
From Coq Require Import ZArith List Bool Lia Permutation.
From Verif Require Import Num ModelNurbs ModelIo ModelPlot SpecIo SpecPlot ProofIo ProofIo4.
Import ListNotations.
Local Open Scope Z_scope.

(** ** Neighbours *)
Lemma next_nil_l j : ~ next_to [] j.
Proof. intros [p [d [s [E _]]]]. destruct p; discriminate. Qed.
Lemma next_nil_r i : ~ next_to i [].
Proof. intros [p [d [s [_ E]]]]. destruct p; discriminate. Qed.
Lemma next_cons x i y j : next_to (x :: i) (y :: j) <-> (y = x + 1 /\ i = j) \/ (x = y /\ next_to i j).
Proof.
  split.
  - intros [p [d [s [E1 E2]]]]. destruct p as [|z p]; cbn in *; injection E1 as -> ->; injection E2 as -> ->.
    + left. auto.
    + right. split; auto. exists p, d, s. auto.
  - intros [[-> ->]|[-> [p [d [s [-> ->]]]]]].
    + exists [], x, j. auto.
    + exists (y :: p), d, s. auto.
Qed.
Lemma adj_sym i j : adjacent i j -> adjacent j i.
Proof. unfold adjacent. tauto. Qed.
Ltac inadj H := unfold adjacent in H; rewrite ?next_cons in H;
  repeat match goal with
  | H : context[next_to [] ?j] |- _ => let K := fresh in pose proof (next_nil_l j) as K; revert H; generalize (next_to [] j) K; clear K; intros ? K H
  end.
Ltac doadj := unfold adjacent; rewrite ?next_cons; solve [repeat first [split; [lia|] | split; [reflexivity|] ; idtac] ; lia | tauto].

(** ** Cells *)
Lemma cells_in sh c : Forall (fun s => 2 <= s) sh -> (In c (cells sh) <-> in_shape (map (fun s => s - 1) sh) c).
Proof.
  intros H. unfold cells. set (cs := map (fun s => s - 1) sh).
  assert (Hc : Forall (fun s => 0 < s) cs) by (unfold cs; rewrite Forall_map; eapply Forall_impl; [|exact H]; cbn; intros; lia).
  assert (E : map (Z.max 0) cs = cs).
  { clear - Hc. induction Hc; [reflexivity|]. cbn. f_equal; [lia|auto]. }
  rewrite E. rewrite in_map_iff. split.
  - intros [k [<- Hk]]. apply in_zseq in Hk. pose proof (prod_pos _ Hc). apply unravel_c_in; auto. lia.
  - intros I. exists (ravel_c cs c). split; [apply unravel_ravel_c; auto|]. apply in_zseq. pose proof (ravel_c_range _ _ I). lia.
Qed.
Definition outl {A : Type} (f : list A) : list (A * A) :=
  match f with [a; b; c; d] => [(a, b); (b, c); (c, d); (d, a)] | _ => [] end.
Lemma outl_map {A} (g : A -> Z) f : outline (map g f) = map (fun ab => (g (fst ab), g (snd ab))) (outl f).
Proof. destruct f as [|a [|b [|c [|d [|e f]]]]]; reflexivity. Qed.
Lemma cell_faces_in sh fs f : In f (cell_faces sh fs) <-> exists c g, In c (cells sh) /\ In g fs /\ f = map (fun o => ravel_c sh (shift c o)) g.
Proof.
  unfold cell_faces. rewrite in_flat_map. split.
  - intros [c [Hc H]]. apply in_map_iff in H. destruct H as [g [E Hg]]. exists c, g. auto.
  - intros [c [g [Hc [Hg E]]]]. exists c. split; auto. apply in_map_iff. exists g. auto.
Qed.
Lemma lines_in sh fs a b : In (a, b) (flat_map outline (cell_faces sh fs)) <->
  exists c o1 o2, In c (cells sh) /\ In (o1, o2) (flat_map outl fs) /\ a = ravel_c sh (shift c o1) /\ b = ravel_c sh (shift c o2).
Proof.
  rewrite in_flat_map. split.
  - intros [f [Hf H]]. apply cell_faces_in in Hf. destruct Hf as [c [g [Hc [Hg ->]]]]. rewrite outl_map in H. apply in_map_iff in H.
    destruct H as [[o1 o2] [E Ho]]. cbn [fst snd] in E. injection E as <- <-. exists c, o1, o2. split; auto. split; [|auto].
    apply in_flat_map. exists g. auto.
  - intros [c [o1 [o2 [Hc [Ho [-> ->]]]]]]. apply in_flat_map in Ho. destruct Ho as [g [Hg Ho]].
    exists (map (fun o => ravel_c sh (shift c o)) g). split; [apply cell_faces_in; eauto|]. rewrite outl_map. apply in_map_iff. exists (o1, o2). auto.
Qed.

(** Lists of length 1, 2, 3. *)
Lemma shape_cases (sh : list Z) : (1 <= length sh <= 3)%nat -> (exists a, sh = [a]) \/ (exists a b, sh = [a; b]) \/ (exists a b c, sh = [a; b; c]).
Proof. destruct sh as [|a [|b [|c [|d sh]]]]; cbn; intros H; try lia; eauto 6. Qed.
Lemma in1 a i : in_shape [a] i <-> exists x, i = [x] /\ 0 <= x < a.
Proof.
  split; [intros H; inversion H as [|? x ? ? ? H1]; subst; inversion H1; subst; eauto|]. intros [x [-> H]]. repeat constructor; lia.
Qed.
Lemma in2 a b i : in_shape [a; b] i <-> exists x y, i = [x; y] /\ 0 <= x < a /\ 0 <= y < b.
Proof.
  split.
  - intros H. inversion H as [|? x ? ? ? H1]; subst. apply in1 in H1. destruct H1 as [y [-> Hy]]. eauto 6.
  - intros [x [y [-> H]]]. repeat constructor; lia.
Qed.
Lemma in3 a b c i : in_shape [a; b; c] i <-> exists x y z, i = [x; y; z] /\ 0 <= x < a /\ 0 <= y < b /\ 0 <= z < c.
Proof.
  split.
  - intros H. inversion H as [|? x ? ? ? H1]; subst. apply in2 in H1. destruct H1 as [y [z [-> Hy]]]. eauto 8.
  - intros [x [y [z [-> H]]]]. repeat constructor; lia.
Qed.
Lemma adj1 x y : adjacent [x] [y] <-> (y = x + 1 \/ x = y + 1).
Proof. unfold adjacent. rewrite !next_cons. pose proof (next_nil_l []). intuition lia. Qed.
Lemma adj_cons x i y j : adjacent (x :: i) (y :: j) <-> ((y = x + 1 \/ x = y + 1) /\ i = j) \/ (x = y /\ adjacent i j).
Proof. unfold adjacent. rewrite !next_cons. intuition (subst; auto). Qed.
Lemma adj2 x y x' y' : adjacent [x; y] [x'; y'] <-> ((x' = x + 1 \/ x = x' + 1) /\ y = y') \/ (x = x' /\ (y' = y + 1 \/ y = y' + 1)).
Proof. rewrite adj_cons, adj1. intuition congruence. Qed.
Lemma adj3 x y z x' y' z' : adjacent [x; y; z] [x'; y'; z'] <->
  ((x' = x + 1 \/ x = x' + 1) /\ y = y' /\ z = z') \/ (x = x' /\ (y' = y + 1 \/ y = y' + 1) /\ z = z') \/ (x = x' /\ y = y' /\ (z' = z + 1 \/ z = z' + 1)).
Proof. rewrite adj_cons, adj2. intuition congruence. Qed.

(** ** The lines of one grid *)
Definition edges2 := Eval vm_compute in flat_map outl faces2.
Definition edges3 := Eval vm_compute in flat_map outl faces3.
Lemma grid_lines_sound sh a b : (1 <= length sh <= 3)%nat -> Forall (fun s => 2 <= s) sh -> In (a, b) (grid_lines sh) ->
  exists i j, in_shape sh i /\ in_shape sh j /\ adjacent i j /\ a = ravel_c sh i /\ b = ravel_c sh j.
Proof.
  intros Hl H I. destruct (shape_cases sh Hl) as [[r ->]|[[r [s ->]]|[r [s [t ->]]]]].
  - cbn [grid_lines] in I. apply in_flat_map in I. destruct I as [l [Il Ia]]. apply in_map_iff in Il. destruct Il as [c [<- Hc]].
    cbn in Ia. destruct Ia as [E|[]]. injection E as <- <-. apply cells_in in Hc; auto. apply in1 in Hc. destruct Hc as [x [-> Hx]]. cbn [shift].
    exists [x + 0], [x + 1]. rewrite !in1, adj1. repeat split; try (eexists; split; [reflexivity|lia]). lia.
  - cbn [grid_lines] in I. apply lines_in in I. destruct I as [c [o1 [o2 [Hc [Ho [-> ->]]]]]]. apply cells_in in Hc; auto. apply in2 in Hc.
    destruct Hc as [x [y [-> [Hx Hy]]]]. exists (shift [x; y] o1), (shift [x; y] o2). change (flat_map outl faces2) with edges2 in Ho.
    cbn in Ho. repeat (destruct Ho as [Ho|Ho]; [injection Ho as <- <-; cbn [shift]; rewrite !in2, adj2;
      split; [do 2 eexists; split; [reflexivity|lia]|split; [do 2 eexists; split; [reflexivity|lia]|split; [lia|auto]]]|]). destruct Ho.
  - cbn [grid_lines] in I. apply lines_in in I. destruct I as [c [o1 [o2 [Hc [Ho [-> ->]]]]]]. apply cells_in in Hc; auto. apply in3 in Hc.
    destruct Hc as [x [y [z [-> [Hx [Hy Hz]]]]]]. exists (shift [x; y; z] o1), (shift [x; y; z] o2). change (flat_map outl faces3) with edges3 in Ho.
    cbn in Ho. repeat (destruct Ho as [Ho|Ho]; [injection Ho as <- <-; cbn [shift]; rewrite !in3, adj3;
      split; [do 3 eexists; split; [reflexivity|lia]|split; [do 3 eexists; split; [reflexivity|lia]|split; [lia|auto]]]|]). destruct Ho.
Qed.

(** Every coordinate is a corner of a cell: the cell and the offset. *)
Lemma corner_of s x : 2 <= s -> 0 <= x < s -> exists c o, 0 <= c < s - 1 /\ (o = 0 \/ o = 1) /\ x = c + o.
Proof. intros H Hx. destruct (Z.eq_dec x (s - 1)); [exists (x - 1), 1|exists x, 0]; lia. Qed.
Lemma edges_list sh fs i j : Forall (fun s => 2 <= s) sh ->
  (exists c o1 o2, in_shape (map (fun s => s - 1) sh) c /\ (In (o1, o2) (flat_map outl fs) \/ In (o2, o1) (flat_map outl fs)) /\ i = shift c o1 /\ j = shift c o2) ->
  In (ravel_c sh i, ravel_c sh j) (flat_map outline (cell_faces sh fs)) \/ In (ravel_c sh j, ravel_c sh i) (flat_map outline (cell_faces sh fs)).
Proof.
  intros H [c [o1 [o2 [Hc [Ho [-> ->]]]]]]. apply cells_in in Hc; auto. destruct Ho as [Ho|Ho]; [left|right]; apply lines_in; do 3 eexists; eauto.
Qed.
Ltac memb := first [left; vm_compute; repeat (first [left; reflexivity|right]); fail | right; vm_compute; repeat (first [left; reflexivity|right]); fail].
Lemma grid_lines_complete sh i j : (1 <= length sh <= 3)%nat -> Forall (fun s => 2 <= s) sh -> in_shape sh i -> in_shape sh j -> adjacent i j ->
  In (ravel_c sh i, ravel_c sh j) (grid_lines sh) \/ In (ravel_c sh j, ravel_c sh i) (grid_lines sh).
Proof.
  intros Hl H Hi Hj A.
  assert (Hn : next_to i j \/ next_to j i) by exact A.
  assert (G : forall i j, in_shape sh i -> in_shape sh j -> next_to i j -> In (ravel_c sh i, ravel_c sh j) (grid_lines sh) \/ In (ravel_c sh j, ravel_c sh i) (grid_lines sh)).
  2:{ destruct Hn as [Hn|Hn]; [apply G; auto|]. destruct (G _ _ Hj Hi Hn); auto. }
  clear i j Hi Hj A Hn. intros i j Hi Hj A.
  destruct (shape_cases sh Hl) as [[r ->]|[[r [s ->]]|[r [s [t ->]]]]].
  - apply in1 in Hi. apply in1 in Hj. destruct Hi as [x [-> Hx]]. destruct Hj as [x' [-> Hx']]. apply next_cons in A.
    destruct A as [[-> _]|[_ A]]; [|destruct (next_nil_l _ A)]. left. cbn [grid_lines]. apply in_flat_map.
    exists [ravel_c [r] [x]; ravel_c [r] [x + 1]]. split; [|left; reflexivity]. apply in_map_iff. exists [x]. split; [cbn [shift]; replace (x + 0) with x by lia; reflexivity|].
    apply cells_in; auto. apply in1. exists x. split; [reflexivity|lia].
  - apply in2 in Hi. apply in2 in Hj. destruct Hi as [x [y [-> [Hx Hy]]]]. destruct Hj as [x' [y' [-> [Hx' Hy']]]].
    assert (R : 2 <= r /\ 2 <= s) by (inversion H as [|? ? ? H1]; subst; inversion H1; subst; auto). destruct R as [R1 R2].
    apply next_cons in A. rewrite next_cons in A. cbn [grid_lines]. apply edges_list; auto. cbn [map].
    destruct A as [[-> E]|[<- [[-> _]|[_ A]]]]; [injection E as <-| |destruct (next_nil_l _ A)].
    + destruct (corner_of s y R2 Hy) as [c [o [Hc [Ho ->]]]].
      exists [x; c], [0; o], [1; o]. split; [apply in2; do 2 eexists; split; [reflexivity|lia]|].
      split; [|cbn [shift]; split; repeat (f_equal; try lia)]. destruct Ho as [->| ->]; memb.
    + destruct (corner_of r x R1 Hx) as [c [o [Hc [Ho ->]]]].
      exists [c; y], [o; 0], [o; 1]. split; [apply in2; do 2 eexists; split; [reflexivity|lia]|].
      split; [|cbn [shift]; split; repeat (f_equal; try lia)]. destruct Ho as [->| ->]; memb.
  - apply in3 in Hi. apply in3 in Hj. destruct Hi as [x [y [z [-> [Hx [Hy Hz]]]]]]. destruct Hj as [x' [y' [z' [-> [Hx' [Hy' Hz']]]]]].
    assert (R : 2 <= r /\ 2 <= s /\ 2 <= t).
    { inversion H as [|? ? ? H1]; subst; inversion H1 as [|? ? ? H2]; subst; inversion H2; subst; auto. } destruct R as [R1 [R2 R3]].
    apply next_cons in A. rewrite next_cons in A. rewrite next_cons in A. cbn [grid_lines]. apply edges_list; auto. cbn [map].
    destruct A as [[-> E]|[<- [[-> E]|[<- [[-> _]|[_ A]]]]]]; [injection E as <- <-|injection E as <-| |destruct (next_nil_l _ A)].
    + destruct (corner_of s y R2 Hy) as [c [o [Hc [Ho ->]]]]. destruct (corner_of t z R3 Hz) as [d [q [Hd [Hq ->]]]].
      exists [x; c; d], [0; o; q], [1; o; q]. split; [apply in3; do 3 eexists; split; [reflexivity|lia]|].
      split; [|cbn [shift]; split; repeat (f_equal; try lia)]. destruct Ho as [->| ->]; destruct Hq as [->| ->]; memb.
    + destruct (corner_of r x R1 Hx) as [c [o [Hc [Ho ->]]]]. destruct (corner_of t z R3 Hz) as [d [q [Hd [Hq ->]]]].
      exists [c; y; d], [o; 0; q], [o; 1; q]. split; [apply in3; do 3 eexists; split; [reflexivity|lia]|].
      split; [|cbn [shift]; split; repeat (f_equal; try lia)]. destruct Ho as [->| ->]; destruct Hq as [->| ->]; memb.
    + destruct (corner_of r x R1 Hx) as [c [o [Hc [Ho ->]]]]. destruct (corner_of s y R2 Hy) as [d [q [Hd [Hq ->]]]].
      exists [c; d; z], [o; q; 0], [o; q; 1]. split; [apply in3; do 3 eexists; split; [reflexivity|lia]|].
      split; [|cbn [shift]; split; repeat (f_equal; try lia)]. destruct Ho as [->| ->]; destruct Hq as [->| ->]; memb.
Qed.
