(** Faces drawn by mayavi; lines and faces drawn by matplotlib. *)
From Coq Require Import ZArith List Bool Lia Permutation.
From Verif Require Import Num ModelNurbs ModelIo ModelPlot SpecIo SpecPlot ProofIo ProofIo4 ProofPlot ProofPlot2.
Import ListNotations.
Local Open Scope Z_scope.

Lemma grid_polys_sound sh f : (1 <= length sh <= 3)%nat -> Forall (fun s => 2 <= s) sh -> In f (grid_polys sh) ->
  exists i j k l, in_shape sh i /\ in_shape sh j /\ in_shape sh k /\ in_shape sh l /\ cycle i j k l /\ f = map (ravel_c sh) [i; j; k; l].
Proof.
  intros Hl H I. destruct (shape_cases sh Hl) as [[r ->]|[[r [s ->]]|[r [s [t ->]]]]]; [destruct I| |].
  - cbn [grid_polys] in I. apply cell_faces_in in I. destruct I as [c [g [Hc [Hg ->]]]]. apply cells_in in Hc; auto. apply in2 in Hc.
    destruct Hc as [x [y [-> [Hx Hy]]]]. cbn in Hg. destruct Hg as [<-|[]]. cbn [map shift].
    match goal with |- context[[ravel_c _ ?a; ravel_c _ ?b; ravel_c _ ?c; ravel_c _ ?d]] => exists a, b, c, d end. rewrite !in2. do 4 (split; [do 2 eexists; split; [reflexivity|lia]|]). split; [|reflexivity].
    unfold cycle. rewrite !adj2. do 4 (split; [lia|]). split; intros E; injection E; lia.
  - cbn [grid_polys] in I. apply cell_faces_in in I. destruct I as [c [g [Hc [Hg ->]]]]. apply cells_in in Hc; auto. apply in3 in Hc.
    destruct Hc as [x [y [z [-> [Hx [Hy Hz]]]]]]. cbn in Hg.
    repeat (destruct Hg as [<-|Hg]; [cbn [map shift]; match goal with |- context[[ravel_c _ ?a; ravel_c _ ?b; ravel_c _ ?c; ravel_c _ ?d]] => exists a, b, c, d end; rewrite !in3; do 4 (split; [do 3 eexists; split; [reflexivity|lia]|]); split; [|reflexivity];
      unfold cycle; rewrite !adj3; do 4 (split; [lia|]); split; intros E; injection E; lia|]). destruct Hg.
Qed.
Lemma cycle1 r i j k l : in_shape [r] i -> in_shape [r] j -> in_shape [r] k -> in_shape [r] l -> cycle i j k l -> False.
Proof.
  rewrite !in1. intros [x [-> _]] [y [-> _]] [z [-> _]] [w [-> _]] [A1 [A2 [A3 [A4 [N1 N2]]]]]. rewrite !adj1 in *.
  assert (x <> z) by congruence. assert (y <> w) by congruence. lia.
Qed.
Lemma grid_polys_complete sh i j k l : (1 <= length sh <= 3)%nat -> Forall (fun s => 2 <= s) sh ->
  in_shape sh i -> in_shape sh j -> in_shape sh k -> in_shape sh l -> cycle i j k l ->
  exists f is, In f (grid_polys sh) /\ f = map (ravel_c sh) is /\ Permutation [i; j; k; l] is /\ Forall (in_shape sh) is.
Proof.
  intros Hl H Hi Hj Hk Hl4 C.
  assert (F : forall is, Permutation [i; j; k; l] is -> Forall (in_shape sh) is).
  { intros is P. eapply Permutation_Forall; [exact P|]. repeat (constructor; auto). }
  destruct (shape_cases sh Hl) as [[r ->]|[[r [s ->]]|[r [s [t ->]]]]].
  - destruct (cycle1 _ _ _ _ _ Hi Hj Hk Hl4 C).
  - assert (R : 2 <= r /\ 2 <= s) by (inversion H as [|? ? ? H1]; subst; inversion H1; subst; auto). destruct R as [R1 R2].
    destruct (cycle2_cell r s i j k l R1 R2 Hi Hj Hk Hl4 C) as [c [g [Hc [Hg P]]]].
    exists (map (fun o => ravel_c [r; s] (shift c o)) g), (map (shift c) g). split; [|split; [rewrite map_map; reflexivity|auto]].
    cbn [grid_polys]. apply cell_faces_in. exists c, g. split; [|auto]. apply cells_in; auto.
  - assert (R : 2 <= r /\ 2 <= s /\ 2 <= t).
    { inversion H as [|? ? ? H1]; subst; inversion H1 as [|? ? ? H2]; subst; inversion H2; subst; auto. } destruct R as [R1 [R2 R3]].
    destruct (cycle3_cell r s t i j k l R1 R2 R3 Hi Hj Hk Hl4 C) as [c [g [Hc [Hg P]]]].
    exists (map (fun o => ravel_c [r; s; t] (shift c o)) g), (map (shift c) g). split; [|split; [rewrite map_map; reflexivity|auto]].
    cbn [grid_polys]. apply cell_faces_in. exists c, g. split; [|auto]. apply cells_in; auto.
Qed.

Section Faces.
Context {N : Num}.
Notation pnt := (N * N * N)%type.
Theorem myv_polys_spec (ts : list (xyz N)) : ts <> [] -> Forall proper_grid ts -> exists P L, myv_polys ts = Ok (P, L) /\
  (forall f, In f L -> exists t p q r s, In t ts /\ square t p q r s /\ corners P f [p; q; r; s]) /\
  (forall t p q r s, In t ts -> square t p q r s -> exists f ps, In f L /\ corners P f ps /\ Permutation [p; q; r; s] ps).
Proof.
  intros H F. unfold myv_polys. rewrite extract_grid_ok by auto.
  set (mv := fun (o : Z) => map (fun a => a + o)). set (pr := fun t : xyz N => grid_polys (shape3 t)).
  destruct (stack_spec mv pr ts 0) as [S1 S2]. destruct (stack mv pr 0 ts) as [P L]. cbn [fst snd] in *. exists P, L. split; auto.
  assert (D : forall ts1 t ts2 is, ts = ts1 ++ t :: ts2 -> Forall (in_shape (shape3 t)) is ->
    corners P (mv (0 + Z.of_nat (length (flat_map grid_points ts1))) (map (ravel_c (shape3 t)) is)) (map (at3 t) is)).
  { intros ts1 t ts2 is E Fi. unfold corners, mv. induction Fi as [|i is Hi Fi IH]; [constructor|]. cbn [map]. constructor; [|exact IH].
    pose proof (nth_part ts1 t ts2 i Hi) as Ni. cbv zeta in Ni. rewrite <- E, <- S1 in Ni. rewrite Z.add_0_l. exact Ni. }
  rewrite Forall_forall in F. split.
  - intros f I. apply S2 in I. destruct I as [ts1 [t [ts2 [y [E [Iy ->]]]]]].
    assert (Ht : In t ts) by (rewrite E; apply in_or_app; right; left; auto). destruct (F t Ht) as [_ [G1 G2]].
    destruct (grid_polys_sound _ _ G1 G2 Iy) as [i [j [k [l [Hi [Hj [Hk [Hl [C ->]]]]]]]]].
    exists t, (at3 t i), (at3 t j), (at3 t k), (at3 t l). split; auto. split.
    + destruct C as [C1 [C2 [C3 [C4 [C5 C6]]]]]. exists i, j, k, l. repeat (split; [assumption|]). auto.
    + apply (D ts1 t ts2 [i; j; k; l] E). repeat (constructor; auto).
  - intros t p q r s Ht [i [j [k [l [Hi [Hj [Hk [Hl [C1 [C2 [C3 [C4 [C5 [C6 [-> [-> [-> ->]]]]]]]]]]]]]]]]].
    destruct (F t Ht) as [_ [G1 G2]]. destruct (in_split t ts Ht) as [ts1 [ts2 E]].
    destruct (grid_polys_complete _ i j k l G1 G2 Hi Hj Hk Hl) as [f [is [If [-> [Pm Fi]]]]]; [repeat (split; auto)|].
    exists (mv (0 + Z.of_nat (length (flat_map grid_points ts1))) (map (ravel_c (shape3 t)) is)), (map (at3 t) is). split; [|split].
    + apply S2. exists ts1, t, ts2. eexists. split; [exact E|]. split; [exact If|reflexivity].
    + apply (D ts1 t ts2 is E Fi).
    + apply (Permutation_map (at3 t)) in Pm. exact Pm.
Qed.

(** ** matplotlib *)
Lemma consecutive_map {A} (f : Z -> A) n p q : consecutive (map f (zseq (Z.to_nat n) 0)) p q <-> exists i, 0 <= i /\ i + 1 < n /\ p = f i /\ q = f (i + 1).
Proof.
  split.
  - intros [l1 [l2 E]].
    assert (Ln : (length l1 + 2 + length l2 = Z.to_nat n)%nat).
    { apply (f_equal (@length A)) in E. rewrite map_length, zseq_length, app_length in E. cbn [length] in E. lia. }
    exists (Z.of_nat (length l1)). split; [lia|]. split; [lia|].
    assert (G : forall k, (k < Z.to_nat n)%nat -> nth_error (map f (zseq (Z.to_nat n) 0)) k = Some (f (Z.of_nat k))).
    { intros k Hk. rewrite (map_nth_error f _ _ (d := Z.of_nat k)); auto. rewrite (nth_error_nth' _ 0) by (rewrite zseq_length; auto). rewrite nth_zseq by auto. f_equal. }
    pose proof (G (length l1) ltac:(lia)) as G1. pose proof (G (S (length l1)) ltac:(lia)) as G2. rewrite E in G1, G2.
    rewrite nth_error_app2 in G1, G2 by lia. replace (length l1 - length l1)%nat with O in G1 by lia. replace (S (length l1) - length l1)%nat with 1%nat in G2 by lia.
    cbn in G1, G2. injection G1 as ->. injection G2 as ->. split; auto. f_equal. lia.
  - intros [i [H1 [H2 [-> ->]]]]. exists (map f (zseq (Z.to_nat i) 0)), (map f (zseq (Z.to_nat (n - i - 2)) (i + 2))).
    replace (Z.to_nat n) with (Z.to_nat i + (2 + Z.to_nat (n - i - 2)))%nat by lia. rewrite zseq_app, map_app. f_equal.
    replace (0 + Z.of_nat (Z.to_nat i)) with i by lia. cbn [Nat.add zseq map]. do 2 f_equal. f_equal. f_equal. lia.
Qed.
Lemma wire_segs (f : Z -> Z -> pnt) r c p q : (exists l, In l (wireframe r c f) /\ consecutive l p q) <->
  (exists i j, 0 <= i < r /\ 0 <= j /\ j + 1 < c /\ p = f i j /\ q = f i (j + 1)) \/ (exists i j, 0 <= j < c /\ 0 <= i /\ i + 1 < r /\ p = f i j /\ q = f (i + 1) j).
Proof.
  unfold wireframe. split.
  - intros [l [I C]]. apply in_app_iff in I. destruct I as [I|I]; apply in_map_iff in I; destruct I as [k [<- Hk]]; apply in_zseq in Hk; apply consecutive_map in C;
      destruct C as [m [C1 [C2 [C3 C4]]]]; [left; exists k, m|right; exists m, k]; repeat split; auto; lia.
  - intros [[i [j [H1 [H2 [H3 [-> ->]]]]]]|[i [j [H1 [H2 [H3 [-> ->]]]]]]]; eexists; (split; [apply in_app_iff|]).
    + left. apply in_map_iff. exists i. split; [reflexivity|]. apply in_zseq. lia.
    + apply consecutive_map. exists j. auto.
    + right. apply in_map_iff. exists j. split; [reflexivity|]. apply in_zseq. lia.
    + apply consecutive_map. exists i. auto.
Qed.
Lemma mpl_line_spec (t : xyz N) p q : (1 <= length (shape3 t) <= 3)%nat -> (drawn (mpl_line t) p q <-> exists i j, in_shape (shape3 t) i /\ in_shape (shape3 t) j /\ next_to i j /\ p = at3 t i /\ q = at3 t j).
Proof.
  intros Hl. unfold mpl_line, drawn. destruct (shape_cases _ Hl) as [[r E]|[[r [s E]]|[r [s [u E]]]]]; rewrite E; cbn [rev app].
  - split.
    + intros [l [[<-|[]] C]]. apply consecutive_map in C. destruct C as [i [H1 [H2 [-> ->]]]]. exists [i], [i + 1]. rewrite !in1.
      split; [eexists; split; [reflexivity|lia]|]. split; [eexists; split; [reflexivity|lia]|]. split; auto. apply next_cons. auto.
    + intros [i [j [Hi [Hj [A [-> ->]]]]]]. apply in1 in Hi, Hj. destruct Hi as [x [-> Hx]], Hj as [y [-> Hy]].
      apply next_cons in A. destruct A as [[-> _]|[_ A]]; [|destruct (next_nil_l _ A)].
      eexists. split; [left; reflexivity|]. apply consecutive_map. exists x. repeat split; auto; lia.
  - rewrite wire_segs. split.
    + intros [[i [j [H1 [H2 [H3 [-> ->]]]]]]|[i [j [H1 [H2 [H3 [-> ->]]]]]]].
      * exists [j; i], [j + 1; i]. rewrite !in2. do 2 (split; [do 2 eexists; split; [reflexivity|lia]|]). split; auto. apply next_cons. auto.
      * exists [j; i], [j; i + 1]. rewrite !in2. do 2 (split; [do 2 eexists; split; [reflexivity|lia]|]). split; auto. apply next_cons. right. split; auto. apply next_cons. auto.
    + intros [i [j [Hi [Hj [A [-> ->]]]]]]. apply in2 in Hi, Hj. destruct Hi as [x [y [-> [Hx Hy]]]], Hj as [x' [y' [-> [Hx' Hy']]]].
      apply next_cons in A. destruct A as [[-> A]|[-> A]].
      * injection A as <-. left. exists y, x. repeat split; auto; lia.
      * apply next_cons in A. destruct A as [[-> _]|[_ A]]; [|destruct (next_nil_l _ A)]. right. exists y, x'. repeat split; auto; lia.
  - split.
    + intros [l [I C]]. apply in_app_iff in I. destruct I as [I|I]; apply in_flat_map in I; destruct I as [i [Hi I]]; apply in_zseq in Hi.
      * assert (W : exists l, In l (wireframe s r (fun j k => at3 t [k; j; i])) /\ consecutive l p q) by eauto. apply wire_segs in W.
        destruct W as [[j [k [H1 [H2 [H3 [-> ->]]]]]]|[j [k [H1 [H2 [H3 [-> ->]]]]]]].
        -- exists [k; j; i], [k + 1; j; i]. rewrite !in3. do 2 (split; [do 3 eexists; split; [reflexivity|lia]|]). split; auto. apply next_cons. auto.
        -- exists [k; j; i], [k; j + 1; i]. rewrite !in3. do 2 (split; [do 3 eexists; split; [reflexivity|lia]|]). split; auto.
           apply next_cons. right. split; auto. apply next_cons. auto.
      * apply in_map_iff in I. destruct I as [k [<- Hk]]. apply in_zseq in Hk. apply consecutive_map in C. destruct C as [m [H1 [H2 [-> ->]]]].
        exists [k; i; m], [k; i; m + 1]. rewrite !in3. do 2 (split; [do 3 eexists; split; [reflexivity|lia]|]). split; auto.
        apply next_cons. right. split; auto. apply next_cons. right. split; auto. apply next_cons. auto.
    + intros [i [j [Hi [Hj [A [-> ->]]]]]]. apply in3 in Hi, Hj. destruct Hi as [x [y [z [-> [Hx [Hy Hz]]]]]], Hj as [x' [y' [z' [-> [Hx' [Hy' Hz']]]]]].
      apply next_cons in A. rewrite next_cons in A. rewrite next_cons in A.
      destruct A as [[-> A]|[<- [[-> A]|[<- [[-> _]|[_ A]]]]]]; [injection A as <- <-|injection A as <-| |destruct (next_nil_l _ A)].
      * assert (W : exists l, In l (wireframe s r (fun j k => at3 t [k; j; z])) /\ consecutive l (at3 t [x; y; z]) (at3 t [x + 1; y; z])).
        { apply wire_segs. left. exists y, x. repeat split; auto; lia. }
        destruct W as [l [W1 W2]]. exists l. split; auto. apply in_app_iff. left. apply in_flat_map. exists z. split; auto. apply in_zseq. lia.
      * assert (W : exists l, In l (wireframe s r (fun j k => at3 t [k; j; z])) /\ consecutive l (at3 t [x; y; z]) (at3 t [x; y + 1; z])).
        { apply wire_segs. right. exists y, x. repeat split; auto; lia. }
        destruct W as [l [W1 W2]]. exists l. split; auto. apply in_app_iff. left. apply in_flat_map. exists z. split; auto. apply in_zseq. lia.
      * eexists. split; [apply in_app_iff; right; apply in_flat_map; exists y; split; [apply in_zseq; lia|]; apply in_map_iff; exists x; split; [reflexivity|apply in_zseq; lia]|].
        apply consecutive_map. exists z. repeat split; auto; lia.
Qed.
Theorem mpl_lines_spec (ts : list (xyz N)) p q : Forall (fun t => (1 <= length (shape3 t) <= 3)%nat) ts ->
  (drawn (mpl_lines ts) p q \/ drawn (mpl_lines ts) q p <-> exists t, In t ts /\ joined t p q).
Proof.
  intros F. rewrite Forall_forall in F.
  assert (G : forall p q, drawn (mpl_lines ts) p q <-> exists t, In t ts /\ drawn (mpl_line t) p q).
  { clear. intros p q. unfold drawn, mpl_lines. split.
    - intros [l [I C]]. apply in_flat_map in I. destruct I as [t [Ht I]]. eauto.
    - intros [t [Ht [l [I C]]]]. exists l. split; auto. apply in_flat_map. eauto. }
  rewrite !G. split.
  - intros [[t [Ht D]]|[t [Ht D]]]; apply mpl_line_spec in D; auto; destruct D as [i [j [Hi [Hj [A [-> ->]]]]]]; exists t; (split; [auto|]).
    + exists i, j. repeat (split; auto). left. auto.
    + exists j, i. repeat (split; auto). right. auto.
  - intros [t [Ht [i [j [Hi [Hj [[A|A] [-> ->]]]]]]]]; [left|right]; exists t; (split; [auto|]); apply mpl_line_spec; auto; [exists i, j|exists j, i]; auto.
Qed.

Theorem mpl_surfs_spec (ts : list (xyz N)) : Forall (fun t => length (shape3 t) = 2%nat /\ Forall (fun s => 2 <= s) (shape3 t)) ts ->
  (forall f, In f (mpl_surfs ts) -> exists t p q r s, In t ts /\ square t p q r s /\ f = [p; q; r; s]) /\
  (forall t p q r s, In t ts -> square t p q r s -> exists f, In f (mpl_surfs ts) /\ Permutation [p; q; r; s] f).
Proof.
  intros F. rewrite Forall_forall in F. split.
  - intros f I. unfold mpl_surfs in I. apply in_flat_map in I. destruct I as [t [Ht I]]. destruct (F t Ht) as [E2 Hs]. exists t.
    unfold mpl_surf in I. destruct (shape3 t) as [|r [|s [|u sh]]] eqn:E; try discriminate. cbn [rev app] in I.
    apply in_flat_map in I. destruct I as [i [Hi I]]. apply in_map_iff in I. destruct I as [j [<- Hj]]. apply in_zseq in Hi, Hj.
    do 4 eexists. split; [auto|]. split; [|reflexivity]. exists [j; i], [j + 1; i], [j + 1; i + 1], [j; i + 1]. rewrite E.
    rewrite !in2, !adj2. do 4 (split; [do 2 eexists; split; [reflexivity|lia]|]). do 4 (split; [lia|]).
    split; [intros X; injection X; lia|]. split; [intros X; injection X; lia|]. auto.
  - intros t p q r s Ht [i [j [k [l [Hi [Hj [Hk [Hl [C1 [C2 [C3 [C4 [C5 [C6 [-> [-> [-> ->]]]]]]]]]]]]]]]]].
    destruct (F t Ht) as [E2 Hs]. destruct (shape3 t) as [|a [|b [|u sh]]] eqn:E; try discriminate.
    assert (R : 2 <= a /\ 2 <= b) by (inversion Hs as [|? ? ? H1]; subst; inversion H1; subst; auto). destruct R as [R1 R2].
    destruct (cycle2_cell a b i j k l R1 R2 Hi Hj Hk Hl) as [c [g [Hc [Hg P]]]]; [repeat (split; auto)|].
    apply in2 in Hc. destruct Hc as [x [y [-> [Hx Hy]]]]. cbn in Hg. destruct Hg as [<-|[]]. cbn [map shift] in P.
    apply (Permutation_map (at3 t)) in P. cbn [map] in P. rewrite !Z.add_0_r in P.
    eexists. split; [|exact P]. unfold mpl_surfs. apply in_flat_map. exists t. split; auto. unfold mpl_surf. rewrite E. cbn [rev app].
    apply in_flat_map. exists y. split; [apply in_zseq; lia|]. apply in_map_iff. exists x. split; [reflexivity|apply in_zseq; lia].
Qed.
End Faces.
