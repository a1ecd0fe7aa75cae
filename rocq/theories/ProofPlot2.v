(** What the plotting backends make of arrays of points: stacking of several arrays, and faces. *)
From Coq Require Import ZArith List Bool Lia Permutation.
From Verif Require Import Num ModelNurbs ModelIo ModelPlot SpecIo SpecPlot ProofIo ProofIo4 ProofPlot.
Import ListNotations.
Local Open Scope Z_scope.

Section Stack.
Context {N : Num}.
Notation pnt := (N * N * N)%type.

Lemma grid_points_nth (t : xyz N) idx : in_shape (shape3 t) idx -> nth_error (grid_points t) (Z.to_nat (ravel_c (shape3 t) idx)) = Some (at3 t idx).
Proof.
  intros I. pose proof (ravel_c_range _ _ I) as R. unfold grid_points.
  rewrite (map_nth_error (fun k => at3 t (unravel_c (shape3 t) k)) _ _ (d := ravel_c (shape3 t) idx)).
  - rewrite unravel_ravel_c by auto. reflexivity.
  - rewrite (nth_error_nth' _ 0) by (rewrite zseq_length; lia). f_equal. rewrite nth_zseq by lia. lia.
Qed.
Lemma grid_points_len (t : xyz N) : length (grid_points t) = Z.to_nat (prod (shape3 t)).
Proof. unfold grid_points. rewrite map_length. apply zseq_length. Qed.

Lemma stack_spec {A : Type} (move : Z -> A -> A) (parts : xyz N -> list A) ts : forall off,
  fst (stack move parts off ts) = flat_map grid_points ts /\
  forall x, In x (snd (stack move parts off ts)) <-> exists ts1 t ts2 y, ts = ts1 ++ t :: ts2 /\ In y (parts t) /\
    x = move (off + Z.of_nat (length (flat_map grid_points ts1))) y.
Proof.
  induction ts as [|t ts IH]; intros off.
  - split; [reflexivity|]. intros x. split; [intros []|]. intros [ts1 [t [ts2 [y [E _]]]]]. destruct ts1; discriminate.
  - cbn [stack]. destruct (stack move parts (off + Z.of_nat (length (grid_points t))) ts) as [P L] eqn:E.
    destruct (IH (off + Z.of_nat (length (grid_points t)))) as [I1 I2]. rewrite E in I1, I2. cbn [fst snd] in *. split.
    + cbn [flat_map]. rewrite I1. reflexivity.
    + intros x. rewrite in_app_iff, in_map_iff, I2. split.
      * intros [[y [<- Hy]]|[ts1 [t' [ts2 [y [-> [Hy ->]]]]]]].
        -- exists [], t, ts, y. cbn. split; auto. split; auto. f_equal. lia.
        -- exists (t :: ts1), t', ts2, y. split; auto. split; auto. cbn [flat_map]. rewrite app_length. f_equal. lia.
      * intros [ts1 [t' [ts2 [y [Es [Hy ->]]]]]]. destruct ts1 as [|t1 ts1]; cbn in Es; injection Es as -> ->.
        -- left. exists y. split; auto. cbn. f_equal. lia.
        -- right. exists ts1, t', ts2, y. split; auto. split; auto. cbn [flat_map]. rewrite app_length. f_equal. lia.
Qed.
Lemma nth_part ts1 (t : xyz N) ts2 idx : in_shape (shape3 t) idx ->
  let k := ravel_c (shape3 t) idx + Z.of_nat (length (flat_map grid_points ts1)) in
  0 <= k /\ nth_error (flat_map grid_points (ts1 ++ t :: ts2)) (Z.to_nat k) = Some (at3 t idx).
Proof.
  intros I k. pose proof (ravel_c_range _ _ I) as R. pose proof (grid_points_len t) as L. split; [unfold k; lia|].
  rewrite flat_map_app. cbn [flat_map]. rewrite nth_error_app2 by (unfold k; lia).
  replace (Z.to_nat k - length (flat_map grid_points ts1))%nat with (Z.to_nat (ravel_c (shape3 t) idx)) by (unfold k; lia).
  rewrite nth_error_app1 by lia. apply grid_points_nth. auto.
Qed.
Lemma shape_eqb_refl s : shape_eqb s s = true.
Proof. induction s; cbn; auto. rewrite Z.eqb_refl. auto. Qed.
Lemma grid_same (t : xyz N) : proper_grid t -> same_shapes t = true.
Proof. intros [[x [y [z [-> [E1 E2]]]]] _]. cbn. rewrite E1, E2, shape_eqb_refl. reflexivity. Qed.
Lemma extract_grid_ok {A : Type} (move : Z -> A -> A) (parts : xyz N -> list A) ts : ts <> [] -> Forall proper_grid ts ->
  extract_grid move parts ts = Ok (stack move parts 0 ts).
Proof.
  intros H F. unfold extract_grid. replace (forallb same_shapes ts) with true; [destruct ts; [congruence|reflexivity]|].
  symmetry. apply forallb_forall. intros t Ht. rewrite Forall_forall in F. apply grid_same. auto.
Qed.

Theorem myv_lines_spec (ts : list (xyz N)) : ts <> [] -> Forall proper_grid ts -> exists P L, myv_lines ts = Ok (P, L) /\
  (forall a b, In (a, b) L -> 0 <= a < Z.of_nat (length P) /\ 0 <= b < Z.of_nat (length P)) /\
  (forall p q, (segment P L p q \/ segment P L q p) <-> exists t, In t ts /\ joined t p q).
Proof.
  intros H F. unfold myv_lines. rewrite extract_grid_ok by auto.
  set (mv := fun (o : Z) (ab : Z * Z) => (fst ab + o, snd ab + o)). set (pr := fun t : xyz N => grid_lines (shape3 t)).
  destruct (stack_spec mv pr ts 0) as [S1 S2]. destruct (stack mv pr 0 ts) as [P L]. cbn [fst snd] in *. exists P, L. split; auto.
  assert (D : forall a b, In (a, b) L -> exists t i j, In t ts /\ in_shape (shape3 t) i /\ in_shape (shape3 t) j /\ adjacent i j /\ 0 <= a /\ 0 <= b /\
    nth_error P (Z.to_nat a) = Some (at3 t i) /\ nth_error P (Z.to_nat b) = Some (at3 t j)).
  { intros a b I. apply S2 in I. destruct I as [ts1 [t [ts2 [[a' b'] [-> [I E]]]]]]. unfold mv in E. cbn [fst snd] in E. injection E as -> ->.
    assert (Ht : In t (ts1 ++ t :: ts2)) by (apply in_or_app; right; left; auto). rewrite Forall_forall in F. destruct (F t Ht) as [_ [G1 G2]].
    destruct (grid_lines_sound _ _ _ G1 G2 I) as [i [j [Hi [Hj [A [-> ->]]]]]].
    pose proof (nth_part ts1 t ts2 i Hi) as Ni. pose proof (nth_part ts1 t ts2 j Hj) as Nj. cbv zeta in Ni, Nj. rewrite <- S1 in Ni, Nj.
    exists t, i, j. repeat split; auto; try apply Ni; try apply Nj. }
  split.
  - intros a b I. destruct (D a b I) as [t [i [j [_ [_ [_ [_ [Ha [Hb [Na Nb]]]]]]]]]].
    assert (nth_error P (Z.to_nat a) <> None) as K1 by congruence. assert (nth_error P (Z.to_nat b) <> None) as K2 by congruence.
    apply nth_error_Some in K1. apply nth_error_Some in K2. lia.
  - intros p q. split.
    + intros [[a [b [I [_ [_ [Ea Eb]]]]]]|[a [b [I [_ [_ [Ea Eb]]]]]]]; destruct (D a b I) as [t [i [j [Ht [Hi [Hj [A [_ [_ [Na Nb]]]]]]]]]];
        exists t; (split; [auto|]); rewrite Ea in Na; rewrite Eb in Nb; injection Na as ->; injection Nb as ->.
      * exists i, j. auto.
      * exists j, i. repeat (split; auto). apply adj_sym. auto.
    + intros [t [Ht [i [j [Hi [Hj [A [-> ->]]]]]]]]. destruct (in_split t ts Ht) as [ts1 [ts2 E]].
      rewrite Forall_forall in F. destruct (F t Ht) as [_ [G1 G2]].
      pose proof (nth_part ts1 t ts2 i Hi) as Ni. pose proof (nth_part ts1 t ts2 j Hj) as Nj. cbv zeta in Ni, Nj. rewrite <- E, <- S1 in Ni, Nj.
      destruct (grid_lines_complete _ i j G1 G2 Hi Hj A) as [I|I]; [left|right];
        [exists (ravel_c (shape3 t) i + Z.of_nat (length (flat_map grid_points ts1))), (ravel_c (shape3 t) j + Z.of_nat (length (flat_map grid_points ts1)))
        |exists (ravel_c (shape3 t) j + Z.of_nat (length (flat_map grid_points ts1))), (ravel_c (shape3 t) i + Z.of_nat (length (flat_map grid_points ts1)))];
        (split; [apply S2; exists ts1, t, ts2; eexists; split; [exact E|]; split; [exact I|]; unfold mv; cbn [fst snd]; f_equal; lia|]);
        repeat split; try apply Ni; try apply Nj.
Qed.
End Stack.

(** ** Faces *)
Definition cnt (x : list Z) (l : list (list Z)) : nat := count_occ (list_eq_dec Z.eq_dec) l x.
Definition isperm (f g : list (list Z)) : bool := forallb (fun x => Nat.eqb (cnt x f) (cnt x g)) (f ++ g).
Lemma isperm_ok f g : isperm f g = true -> Permutation f g.
Proof.
  intros H. apply (Permutation_count_occ (list_eq_dec Z.eq_dec)). intros x. unfold isperm in H. rewrite forallb_forall in H.
  destruct (in_dec (list_eq_dec Z.eq_dec) x (f ++ g)) as [I|I].
  - apply Nat.eqb_eq. apply (H x I).
  - rewrite in_app_iff in I.
    assert (count_occ (list_eq_dec Z.eq_dec) f x = 0%nat) by (apply count_occ_not_In; tauto).
    assert (count_occ (list_eq_dec Z.eq_dec) g x = 0%nat) by (apply count_occ_not_In; tauto). congruence.
Qed.
Fixpoint dist (i j : list Z) : Z := match i, j with x :: i', y :: j' => Z.abs (x - y) + dist i' j' | _, _ => 0 end.
Definition cube2 : list (list Z) := flat_map (fun x => map (fun y => [x; y]) [0; 1]) [0; 1].
Definition cube3 : list (list Z) := flat_map (fun x => map (cons x) cube2) [0; 1].
(** All closed paths of four different corners of the unit cube are faces. *)
Definition cycles_ok (cube : list (list Z)) (fs : list (list (list Z))) : bool :=
  forallb (fun i => forallb (fun j => if dist i j =? 1 then
    forallb (fun k => if (dist j k =? 1) && (dist i k =? 2) then
      forallb (fun l => if (dist k l =? 1) && (dist l i =? 1) && (dist j l =? 2) then existsb (isperm [i; j; k; l]) fs else true) cube
    else true) cube else true) cube) cube.
Lemma cycles2 : cycles_ok cube2 faces2 = true. Proof. vm_compute. reflexivity. Qed.
Lemma cycles3 : cycles_ok cube3 faces3 = true. Proof. vm_compute. reflexivity. Qed.
Lemma cycles_use cube fs i j k l : cycles_ok cube fs = true -> In i cube -> In j cube -> In k cube -> In l cube ->
  dist i j = 1 -> dist j k = 1 -> dist k l = 1 -> dist l i = 1 -> dist i k = 2 -> dist j l = 2 -> exists g, In g fs /\ Permutation [i; j; k; l] g.
Proof.
  intros C Hi Hj Hk Hl E1 E2 E3 E4 E5 E6. unfold cycles_ok in C. rewrite forallb_forall in C. specialize (C i Hi).
  rewrite forallb_forall in C. specialize (C j Hj). rewrite E1 in C. cbn [Z.eqb Pos.eqb] in C.
  rewrite forallb_forall in C. specialize (C k Hk). rewrite E2, E5 in C. cbn [Z.eqb Pos.eqb andb] in C.
  rewrite forallb_forall in C. specialize (C l Hl). rewrite E3, E4, E6 in C. cbn [Z.eqb Pos.eqb andb] in C.
  apply existsb_exists in C. destruct C as [g [Hg Hp]]. exists g. split; auto. apply isperm_ok. auto.
Qed.
Lemma cell_coord s a b c d : 2 <= s -> 0 <= a < s -> 0 <= b < s -> 0 <= c < s -> 0 <= d < s ->
  -1 <= a - b <= 1 -> -1 <= b - c <= 1 -> -1 <= c - d <= 1 -> -1 <= d - a <= 1 -> -1 <= a - c <= 1 -> -1 <= b - d <= 1 ->
  exists m, 0 <= m < s - 1 /\ 0 <= a - m <= 1 /\ 0 <= b - m <= 1 /\ 0 <= c - m <= 1 /\ 0 <= d - m <= 1.
Proof. intros. exists (Z.min (Z.min (Z.min a b) (Z.min c d)) (s - 2)). lia. Qed.
Lemma in_cube2 x y : 0 <= x <= 1 -> 0 <= y <= 1 -> In [x; y] cube2.
Proof. intros Hx Hy. assert (x = 0 \/ x = 1) as [->| ->] by lia; assert (y = 0 \/ y = 1) as [->| ->] by lia; cbn; tauto. Qed.
Lemma in_cube3 x y z : 0 <= x <= 1 -> 0 <= y <= 1 -> 0 <= z <= 1 -> In [x; y; z] cube3.
Proof.
  intros Hx Hy Hz. assert (x = 0 \/ x = 1) as [->| ->] by lia; assert (y = 0 \/ y = 1) as [->| ->] by lia; assert (z = 0 \/ z = 1) as [->| ->] by lia; cbn; tauto.
Qed.
Lemma shift_back2 m n x y : shift [m; n] [x - m; y - n] = [x; y].
Proof. cbn. repeat f_equal; lia. Qed.
Lemma shift_back3 m n o x y z : shift [m; n; o] [x - m; y - n; z - o] = [x; y; z].
Proof. cbn. repeat f_equal; lia. Qed.

(** Four different grid points, each next to the following one, are the corners of a face of a cell. *)
Definition cycle (i j k l : list Z) : Prop := adjacent i j /\ adjacent j k /\ adjacent k l /\ adjacent l i /\ i <> k /\ j <> l.
Lemma adj_dist2 x y x' y' : adjacent [x; y] [x'; y'] -> (-1 <= x - x' <= 1 /\ -1 <= y - y' <= 1) /\ forall m n, dist [x - m; y - n] [x' - m; y' - n] = 1.
Proof. rewrite adj2. intros A. split; [lia|]. intros m n. cbn [dist]. replace (x - m - (x' - m)) with (x - x') by lia. replace (y - n - (y' - n)) with (y - y') by lia. lia. Qed.
Lemma adj_dist3 x y z x' y' z' : adjacent [x; y; z] [x'; y'; z'] -> (-1 <= x - x' <= 1 /\ -1 <= y - y' <= 1 /\ -1 <= z - z' <= 1) /\
  forall m n o, dist [x - m; y - n; z - o] [x' - m; y' - n; z' - o] = 1.
Proof.
  rewrite adj3. intros A. split; [lia|]. intros m n o. cbn [dist]. replace (x - m - (x' - m)) with (x - x') by lia.
  replace (y - n - (y' - n)) with (y - y') by lia. replace (z - o - (z' - o)) with (z - z') by lia. lia.
Qed.
(** Two steps that do not lead back, and whose ends have two common neighbours. *)
Lemma diag2 x1 y1 x2 y2 x3 y3 x4 y4 : adjacent [x1; y1] [x2; y2] -> adjacent [x2; y2] [x3; y3] -> adjacent [x3; y3] [x4; y4] -> adjacent [x4; y4] [x1; y1] ->
  [x1; y1] <> [x3; y3] -> [x2; y2] <> [x4; y4] -> (-1 <= x1 - x3 <= 1 /\ -1 <= y1 - y3 <= 1) /\ forall m n, dist [x1 - m; y1 - n] [x3 - m; y3 - n] = 2.
Proof.
  rewrite !adj2. intros A1 A2 A3 A4 N1 N2.
  assert (M1 : x1 <> x3 \/ y1 <> y3) by (destruct (Z.eq_dec x1 x3); [destruct (Z.eq_dec y1 y3); [subst; congruence|auto]|auto]).
  assert (M2 : x2 <> x4 \/ y2 <> y4) by (destruct (Z.eq_dec x2 x4); [destruct (Z.eq_dec y2 y4); [subst; congruence|auto]|auto]).
  clear N1 N2.
  assert (K : (x1 - x3 = 1 \/ x1 - x3 = -1) /\ (y1 - y3 = 1 \/ y1 - y3 = -1)).
  { destruct A1 as [[[?|?] ?]|[? [?|?]]]; destruct A2 as [[[?|?] ?]|[? [?|?]]]; subst; try (exfalso; clear A3 A4 M2; lia); try (clear A3 A4 M1 M2; lia);
      exfalso; destruct A3 as [[[?|?] ?]|[? [?|?]]]; subst; lia. }
  clear - K. split; [lia|]. intros m n. cbn [dist]. replace (x1 - m - (x3 - m)) with (x1 - x3) by lia. replace (y1 - n - (y3 - n)) with (y1 - y3) by lia. lia.
Qed.
Lemma diag3 x1 y1 z1 x2 y2 z2 x3 y3 z3 x4 y4 z4 : adjacent [x1; y1; z1] [x2; y2; z2] -> adjacent [x2; y2; z2] [x3; y3; z3] -> adjacent [x3; y3; z3] [x4; y4; z4] -> adjacent [x4; y4; z4] [x1; y1; z1] ->
  [x1; y1; z1] <> [x3; y3; z3] -> [x2; y2; z2] <> [x4; y4; z4] -> (-1 <= x1 - x3 <= 1 /\ -1 <= y1 - y3 <= 1 /\ -1 <= z1 - z3 <= 1) /\
  forall m n o, dist [x1 - m; y1 - n; z1 - o] [x3 - m; y3 - n; z3 - o] = 2.
Proof.
  rewrite !adj3. intros A1 A2 A3 A4 N1 N2.
  assert (M1 : x1 <> x3 \/ y1 <> y3 \/ z1 <> z3).
  { destruct (Z.eq_dec x1 x3); [destruct (Z.eq_dec y1 y3); [destruct (Z.eq_dec z1 z3); [subst; congruence|auto]|auto]|auto]. }
  assert (M2 : x2 <> x4 \/ y2 <> y4 \/ z2 <> z4).
  { destruct (Z.eq_dec x2 x4); [destruct (Z.eq_dec y2 y4); [destruct (Z.eq_dec z2 z4); [subst; congruence|auto]|auto]|auto]. }
  clear N1 N2.
  assert (K : ((x1 - x3 = 1 \/ x1 - x3 = -1) /\ (y1 - y3 = 1 \/ y1 - y3 = -1) /\ z1 - z3 = 0) \/
              ((x1 - x3 = 1 \/ x1 - x3 = -1) /\ y1 - y3 = 0 /\ (z1 - z3 = 1 \/ z1 - z3 = -1)) \/
              (x1 - x3 = 0 /\ (y1 - y3 = 1 \/ y1 - y3 = -1) /\ (z1 - z3 = 1 \/ z1 - z3 = -1))).
  { destruct A1 as [[[?|?] [? ?]]|[[? [[?|?] ?]]|[? [? [?|?]]]]]; destruct A2 as [[[?|?] [? ?]]|[[? [[?|?] ?]]|[? [? [?|?]]]]]; subst;
      try (exfalso; clear A3 A4 M2; lia); try (clear A3 A4 M1 M2; lia);
      exfalso; destruct A3 as [[[?|?] [? ?]]|[[? [[?|?] ?]]|[? [? [?|?]]]]]; subst; try (clear A4 M1; lia); clear M1 M2; lia. }
  clear - K. split; [lia|]. intros m n o. cbn [dist]. replace (x1 - m - (x3 - m)) with (x1 - x3) by lia.
  replace (y1 - n - (y3 - n)) with (y1 - y3) by lia. replace (z1 - o - (z3 - o)) with (z1 - z3) by lia. lia.
Qed.
Lemma cycle2_cell r s i j k l : 2 <= r -> 2 <= s -> in_shape [r; s] i -> in_shape [r; s] j -> in_shape [r; s] k -> in_shape [r; s] l -> cycle i j k l ->
  exists c g, in_shape [r - 1; s - 1] c /\ In g faces2 /\ Permutation [i; j; k; l] (map (shift c) g).
Proof.
  intros Hr Hs Hi Hj Hk Hl [A1 [A2 [A3 [A4 [N1 N2]]]]]. apply in2 in Hi, Hj, Hk, Hl.
  destruct Hi as [x1 [y1 [-> [? ?]]]], Hj as [x2 [y2 [-> [? ?]]]], Hk as [x3 [y3 [-> [? ?]]]], Hl as [x4 [y4 [-> [? ?]]]].
  destruct (diag2 _ _ _ _ _ _ _ _ A1 A2 A3 A4 N1 N2) as [[B5 B5'] D5].
  destruct (diag2 _ _ _ _ _ _ _ _ A2 A3 A4 A1 N2 (not_eq_sym N1)) as [[B6 B6'] D6].
  apply adj_dist2 in A1, A2, A3, A4. destruct A1 as [[B1 B1'] D1], A2 as [[B2 B2'] D2], A3 as [[B3 B3'] D3], A4 as [[B4 B4'] D4].
  destruct (cell_coord r x1 x2 x3 x4) as [m [Hm [P1 [P2 [P3 P4]]]]]; auto.
  destruct (cell_coord s y1 y2 y3 y4) as [n [Hn [Q1 [Q2 [Q3 Q4]]]]]; auto.
  destruct (cycles_use cube2 faces2 [x1 - m; y1 - n] [x2 - m; y2 - n] [x3 - m; y3 - n] [x4 - m; y4 - n] cycles2) as [g [Hg Pg]]; auto using in_cube2.
  exists [m; n], g. split; [apply in2; do 2 eexists; split; [reflexivity|lia]|]. split; auto.
  apply (Permutation_map (shift [m; n])) in Pg. cbn [map] in Pg. rewrite !shift_back2 in Pg. exact Pg.
Qed.
Lemma cycle3_cell r s t i j k l : 2 <= r -> 2 <= s -> 2 <= t -> in_shape [r; s; t] i -> in_shape [r; s; t] j -> in_shape [r; s; t] k -> in_shape [r; s; t] l -> cycle i j k l ->
  exists c g, in_shape [r - 1; s - 1; t - 1] c /\ In g faces3 /\ Permutation [i; j; k; l] (map (shift c) g).
Proof.
  intros Hr Hs Ht Hi Hj Hk Hl [A1 [A2 [A3 [A4 [N1 N2]]]]]. apply in3 in Hi, Hj, Hk, Hl.
  destruct Hi as [x1 [y1 [z1 [-> [? [? ?]]]]]], Hj as [x2 [y2 [z2 [-> [? [? ?]]]]]], Hk as [x3 [y3 [z3 [-> [? [? ?]]]]]], Hl as [x4 [y4 [z4 [-> [? [? ?]]]]]].
  destruct (diag3 _ _ _ _ _ _ _ _ _ _ _ _ A1 A2 A3 A4 N1 N2) as [[B5 [B5' B5'']] D5].
  destruct (diag3 _ _ _ _ _ _ _ _ _ _ _ _ A2 A3 A4 A1 N2 (not_eq_sym N1)) as [[B6 [B6' B6'']] D6].
  apply adj_dist3 in A1, A2, A3, A4.
  destruct A1 as [[B1 [B1' B1'']] D1], A2 as [[B2 [B2' B2'']] D2], A3 as [[B3 [B3' B3'']] D3], A4 as [[B4 [B4' B4'']] D4].
  destruct (cell_coord r x1 x2 x3 x4) as [m [Hm [P1 [P2 [P3 P4]]]]]; auto.
  destruct (cell_coord s y1 y2 y3 y4) as [n [Hn [Q1 [Q2 [Q3 Q4]]]]]; auto.
  destruct (cell_coord t z1 z2 z3 z4) as [o [Ho [R1 [R2 [R3 R4]]]]]; auto.
  destruct (cycles_use cube3 faces3 [x1 - m; y1 - n; z1 - o] [x2 - m; y2 - n; z2 - o] [x3 - m; y3 - n; z3 - o] [x4 - m; y4 - n; z4 - o] cycles3) as [g [Hg Pg]]; auto using in_cube3.
  exists [m; n; o], g. split; [apply in3; do 3 eexists; split; [reflexivity|lia]|]. split; auto.
  apply (Permutation_map (shift [m; n; o])) in Pg. cbn [map] in Pg. rewrite !shift_back3 in Pg. exact Pg.
Qed.
