(** Sharing of arrays between objects and with the caller. *)
From Coq Require Import ZArith QArith Reals List Bool Lia Sorted Permutation.
From Verif Require Import Num Loop ModelNurbs ModelRemove ModelDer ModelIo ModelHeap SpecNurbs SpecIo SpecHeap ProofHeap ProofHeap2 ProofHeap3 ProofHeap4 ProofHeap5 ProofHeap6.
Import ListNotations.
Local Open Scope Z_scope.

(** A store with the caller's arrays: the knots 0,0,10,10, a control array with two points, and the
    array 7, 3.  The constructor keeps the first two as the arrays of object 0. *)
Definition vec_q (l : list Q) : nd Qn := mkNd (N:=Qn) [Z.of_nat (length l)] (fun idx => nth (Z.to_nat (hd 0 idx)) l 0%Q).
Definition mat_q (n m : Z) (l : list Q) : nd Qn := mkNd (N:=Qn) [n; m] (fun idx => nth (Z.to_nat (m * hd 0 idx + hd 0 (tl idx))) l 0%Q).
Definition hj : Z -> Qn := fun _ => 0%Q.
Definition hj2 : Z -> Z -> Qn := fun _ _ => 0%Q.
Definition hj3 : Z -> Z -> Z -> Qn := fun _ _ _ => 0%Q.
Definition hjS : Z -> Z := fun _ => 0.
Definition ex0 : store Qn := mkStore (N:=Qn)
  (fun l => if l =? 0 then vec_q [0; 0; 10; 10]%Q else if l =? 1 then mat_q 2 4 [2; 1; 3; 4; 8; 6; 5; 7]%Q else if l =? 2 then vec_q [7; 3]%Q else vec_q [])
  3 (fun _ => (0, [])) 0.
Definition ex1 : store Qn := fst (h_init (N:=Qn) hj [ARef 0 true] (Some (ARef 1 true)) None None ex0).
Definition soundb (s : store Qn) (o : Z) : bool :=
  (0 <=? o) && (o <? s_nobj s) && forallb (fun l => (0 <=? l) && (l <? s_next s)) (arrays s o) && Nat.eqb (length (nd_shape (s_arr s (fst (s_obj s o))))) (S (length (snd (s_obj s o)))).
Lemma soundb_ok s o : soundb s o = true -> sound s o.
Proof.
  unfold soundb. intros H. apply andb_prop in H as [H H4]. apply andb_prop in H as [H H3]. apply andb_prop in H as [H1 H2]. split; [apply Z.leb_le in H1; apply Z.ltb_lt in H2; lia|].
  split; [|apply Nat.eqb_eq; auto]. rewrite forallb_forall in H3. apply Forall_forall. intros l I. specialize (H3 l I). apply andb_prop in H3 as [A B]. apply Z.leb_le in A. apply Z.ltb_lt in B. unfold exists_array. lia.
Qed.
Lemma ex1_sound : sound ex1 0.
Proof. apply soundb_ok. vm_compute. reflexivity. Qed.

(** ** C29: copies and clones *)
(** A copy has the value of the object and arrays of its own, which no other object has. *)
Theorem C29_copy : forall (N : Num) (s : store N) o, sound s o ->
  exists s', h_copy o s = (s', Ok (s_nobj s)) /\ sound s' (s_nobj s) /\ value s' (s_nobj s) = value s o /\ NoDup (arrays s' (s_nobj s)) /\
    forall y, sound s y -> sound s' y /\ arrays s' y = arrays s y /\ value s' y = value s y /\ (forall l, In l (arrays s' (s_nobj s)) -> ~ In l (arrays s' y)).
Proof. exact @copy_disjoint. Qed.
Print Assumptions C29_copy.
(** Whatever is done afterwards: calls that are not methods of the object itself, and writes (in any
    order) into arrays other than those the object had, leave the object as it is.  In particular
    methods of a clone or a copy, and writes into the arrays of a copy. *)
Theorem C29_others : forall (N : Num) (junk : Z -> N) junk2 junk3 junkS nsqrt ps s y, sound s y ->
  (forall p, In p ps -> self p <> Some y /\ forall l, In l (written p) -> ~ In l (arrays s y)) ->
  sound (run junk junk2 junk3 junkS nsqrt ps s) y /\ arrays (run junk junk2 junk3 junkS nsqrt ps s) y = arrays s y /\ value (run junk junk2 junk3 junkS nsqrt ps s) y = value s y.
Proof. exact @others_unchanged. Qed.
Print Assumptions C29_others.
(** After a copy, the original is immune to all that is done to the copy and its arrays, and the copy
    to all that is done to the original and its arrays. *)
Theorem C29_independent : forall (N : Num) (junk : Z -> N) junk2 junk3 junkS nsqrt s o s' c ps, sound s o -> h_copy o s = (s', Ok c) ->
  ((forall p, In p ps -> self p <> Some o /\ forall l, In l (written p) -> In l (arrays s' c) \/ s_next s' <= l) -> value (run junk junk2 junk3 junkS nsqrt ps s') o = value s o) /\
  ((forall p, In p ps -> self p <> Some c /\ forall l, In l (written p) -> l < s_next s \/ s_next s' <= l) -> value (run junk junk2 junk3 junkS nsqrt ps s') c = value s o).
Proof. exact @copy_independent. Qed.
Print Assumptions C29_independent.
(** A clone has the same arrays; writes (and any calls that are methods of neither) are seen through
    both alike. *)
Theorem C29_clone : forall (N : Num) (junk : Z -> N) junk2 junk3 junkS nsqrt s o, sound s o ->
  exists s', h_clone o s = (s', Ok (s_nobj s)) /\ sound s' (s_nobj s) /\ arrays s' (s_nobj s) = arrays s o /\ arrays s' o = arrays s o /\ value s' (s_nobj s) = value s o /\
    forall ps, (forall p, In p ps -> self p <> Some o /\ self p <> Some (s_nobj s)) ->
      value (run junk junk2 junk3 junkS nsqrt ps s') (s_nobj s) = value (run junk junk2 junk3 junkS nsqrt ps s') o.
Proof. exact @clone_shares. Qed.
Print Assumptions C29_clone.
(** The exception: an array of the object passed as argument of refine, whichever object is refined.
    Here object 1 is a clone of object 0, and refined at the entries of the control array. *)
Definition exRef : list (op Qn) := [OpClone 0; OpRefine 1 0 (ARef 1 true)].
Theorem C29_refuted : exists (s : store Qn) o ps, sound s o /\ (forall p, In p ps -> self p <> Some o) /\ (forall l f, ~ In (OpWrite l f) ps) /\
  (exists s1, perform hj hj2 hj3 hjS (fun x => x) (nth 0 ps (OpCopy 0)) s = (s1, Ok tt) /\ exists s2, perform hj hj2 hj3 hjS (fun x => x) (nth 1 ps (OpCopy 0)) s1 = (s2, Ok tt)) /\ length ps = 2%nat /\
  n_arr (value s o) [0] 0 = 2%Q /\ n_arr (value (run hj hj2 hj3 hjS (fun x => x) ps s) o) [0] 0 = 1%Q.
Proof.
  exists ex1, 0, exRef. split; [exact ex1_sound|]. split; [intros p [<- |[<- |[]]]; discriminate|]. split; [intros l f [E|[E|[]]]; discriminate|].
  split; [|split; [reflexivity|split; vm_compute; reflexivity]].
  eexists. split; [reflexivity|].
  match goal with |- exists s2, ?x = _ => assert (E : match snd x with Ok _ => true | Raise _ => false end = true) by (vm_compute; reflexivity); destruct x as [s2 [[]|e]]; [exists s2; reflexivity|discriminate] end.
Qed.
Print Assumptions C29_refuted.
(** Object 0 is copied and cloned; the copy is written into and refined, the clone is reversed and
    transformed: object 0 is as before.  A write into the array of the clone is seen. *)
Definition exOps : list (op Qn) := [OpCopy 0; OpClone 0; OpWrite 3 (fun _ => 1%Q); OpRefine 1 0 (ARef 2 true); OpReverse 2 []; OpTransform 2 (AVal (mat_q 4 4 [2;0;0;0; 0;2;0;0; 0;0;2;0; 0;0;0;1]%Q))].
Example C29_example : (forall p, In p exOps -> self p <> Some 0 /\ forall l, In l (written p) -> ~ In l (arrays ex1 0)) /\
  arrays (run hj hj2 hj3 hjS (fun x => x) exOps ex1) 1 <> arrays ex1 0.
Proof.
  split.
  - assert (A : arrays ex1 0 = [1; 0]) by (vm_compute; reflexivity). rewrite A. intros p I.
    repeat (destruct I as [<- |I]; [split; [discriminate|intros l J; cbn in J; repeat destruct J as [<- |J]; try contradiction; intros K; repeat destruct K as [K|K]; try contradiction; discriminate]|]). contradiction.
  - intros E. assert (B : match arrays (run hj hj2 hj3 hjS (fun x => x) exOps ex1) 1 with l :: _ => negb (l =? 1) | [] => false end = true) by (vm_compute; reflexivity).
    rewrite E in B. vm_compute in B. discriminate.
Qed.
Example C29_clone_run : n_arr (value (run hj hj2 hj3 hjS (fun x => x) [OpClone 0; OpWrite 1 (fun _ => 9%Q)] ex1) 1) [1] 2 = 9%Q.
Proof. vm_compute. reflexivity. Qed.

(** ** C30: arguments *)
(** refine sorts the array it is given. *)
Theorem C30_refuted : exists (s : store Qn) o l, sound s o /\ exists_array s l /\ ~ In l (arrays s o) /\
  exists s', h_refine hj o 0 (ARef l true) s = (s', Ok tt) /\ nd_get (s_arr s l) [0] = 7%Q /\ nd_get (s_arr s' l) [0] = 3%Q.
Proof.
  exists ex1, 0, 2. split; [exact ex1_sound|]. split; [vm_compute; split; congruence|]. split; [intros I; repeat destruct I as [I|I]; try contradiction; vm_compute in I; discriminate|].
  assert (X : match h_refine hj 0 0 (ARef 2 true) ex1 with (s', Ok _) => Qeq_bool (nd_get (s_arr s' 2) [0]) 3%Q && (match nd_get (s_arr s' 2) [0] with Qmake 3 1 => true | _ => false end) | _ => false end = true) by (vm_compute; reflexivity).
  destruct (h_refine hj 0 0 (ARef 2 true) ex1) as [s' [[]|]]; [|discriminate]. exists s'. split; [reflexivity|]. split; [vm_compute; reflexivity|].
  apply andb_prop in X as [_ X]. destruct (nd_get (s_arr s' 2) [0]) as [n d]. destruct n as [|[[]| |]|]; try discriminate. destruct d; try discriminate. reflexivity.
Qed.
Print Assumptions C30_refuted.
(** Everything else: a call changes no array that existed before it, except the array given to
    refine (if it is contiguous and of doubles). *)
Theorem C30_arguments : forall (N : Num) (junk : Z -> N) junk2 junk3 junkS nsqrt p s l, exists_array s l -> ~ In l (written p) ->
  s_arr (fst (perform junk junk2 junk3 junkS nsqrt p s)) l = s_arr s l.
Proof. exact @arrays_unchanged. Qed.
Print Assumptions C30_arguments.
(** And what refine does to it: the same numbers, ascending, also if it raises afterwards. *)
Theorem C30_refine : forall (junk : Z -> R) (s : store Rn) o ax l a, sound s o -> exists_array s l -> py_axis (n_dim (value s o)) ax = Ok a -> Forall (fun n => 0 < n) (nd_shape (s_arr s l)) ->
  let s' := fst (h_refine (N:=Rn) junk o ax (ARef l true) s) in
  nd_shape (s_arr s' l) = nd_shape (s_arr s l) /\ Permutation (map (nd_get (s_arr s' l)) (loops (nd_shape (s_arr s l)))) (map (nd_get (s_arr s l)) (loops (nd_shape (s_arr s l)))) /\
  StronglySorted Rle (map (nd_get (s_arr s' l)) (loops (nd_shape (s_arr s l)))).
Proof. exact refine_sorts. Qed.
Print Assumptions C30_refine.
Example C30_example : sound ex1 0 /\ exists_array ex1 2 /\ ~ In 2 (written (OpInsert (N:=Qn) 0 0 (7 # 1)%Q None)) /\ py_axis (n_dim (value ex1 0)) (-1) = Ok 0%nat.
Proof. split; [exact ex1_sound|]. split; [vm_compute; split; congruence|]. split; [exact (fun f => f)|vm_compute; reflexivity]. Qed.

(** ** C78: sharing does not change results *)
(** Each method does to an object, whatever shares its arrays, what ModelNurbs.v computes for its
    value, and raises the same. *)
Theorem C78_methods : forall (N : Num) (junk : Z -> N) junk2 nsqrt s o, sound s o ->
  (forall M, arg_ok s M -> does (h_transform o M) s o (fun nrb => bind (assert (shape_eqb (nd_shape (contents s M)) [4; 4])) (fun _ => Ok (transform nrb (fun i j => nd_get (contents s M) [i; j]))))) /\
  (forall axes, does (h_transpose o axes) s o (fun nrb => transpose nrb axes)) /\
  (forall ax1 ax2, does (h_swap o ax1 ax2) s o (fun nrb => swap nrb ax1 ax2)) /\
  (forall axes, does (h_reverse o axes) s o (fun nrb => reverse nrb axes)) /\
  (forall ax start end_, does (h_remap o ax start end_) s o (fun nrb => remap nrb ax start end_)) /\
  (forall ax v times, does (h_insert junk o ax v times) s o (fun nrb => insert junk nrb ax v times)) /\
  (forall ax v times deviation, does (h_remove junk2 nsqrt o ax v times deviation) s o (fun nrb => remove nsqrt junk2 nrb ax v times deviation)) /\
  (forall ax side, does (h_clamp junk o ax side) s o (fun nrb => clamp junk nrb ax side)) /\
  (forall ax side c, does (h_unclamp junk o ax side c) s o (fun nrb => unclamp junk nrb ax side c)) /\
  (forall ax times, does (h_elevate junk junk2 o ax times) s o (fun nrb => elevate junk junk2 nrb ax times)) /\
  (forall ax x, arg_ok s x -> 0 <= prod (nd_shape (contents s x)) -> (forall l, x = ARef l true -> ~ In l (arrays s o)) ->
     does (h_refine junk o ax x) s o (fun nrb => refine junk nrb ax (map (nd_get (contents s x)) (map (unravel_c (nd_shape (contents s x))) (zseq (Z.to_nat (prod (nd_shape (contents s x)))) 0))))).
Proof. exact @methods_do. Qed.
Print Assumptions C78_methods.
(** The calls that return a new object. *)
Theorem C78_objects : forall (N : Num) (junk : Z -> N) s o, sound s o ->
  (forall ax start end_, makes (h_slice junk o ax start end_) s (slice junk (value s o) ax start end_)) /\
  (forall ax v, makes (h_extract junk o ax v) s (extract junk (value s o) ax v)) /\
  (forall ax side, makes (h_boundary junk o ax side) s (boundary junk (value s o) ax side)).
Proof. exact @objects_made. Qed.
Print Assumptions C78_objects.
(** The constructor: whether it keeps the arrays of the caller or not. *)
Theorem C78_init : forall (N : Num) (junk : Z -> N) s knots control fields weights,
  0 <= s_next s -> 0 <= s_nobj s -> Forall (arg_ok s) knots -> opt_ok s control -> opt_ok s fields -> opt_ok s weights ->
  makes (h_init junk knots control fields weights) s
    (bind (assert (forallb (fun k => Nat.eqb (length (nd_shape k)) 1) (map (contents s) knots)))
       (fun _ => init junk (map (fun x => nd_vec (contents s x)) knots) (option_map (contents s) control) (option_map (contents s) fields) (option_map (contents s) weights))).
Proof. exact @init_makes. Qed.
Print Assumptions C78_init.
(** Evaluation. *)
Theorem C78_evaluation : forall (N : Num) (junk : Z -> N) junk2 junk3 junkS s o args fields, sound s o -> Forall (opt_ok s) args -> opt_ok s fields ->
  (forall flag, snd (h_call junk junk2 junk3 junkS o args fields flag s) =
     call junk junk2 junk3 junkS (value s o) (map (option_map (fun x => nd_vec (contents s x))) args) (match fields with Some x => FArr (contents s x) | None => if flag then FYes else FNo end)) /\
  snd (h_evaluate junk junk2 junk3 junkS o args fields s) =
     evaluate junk junk2 junk3 junkS (value s o) (option_map (contents s) fields) (map (option_map (fun x => nd_vec (contents s x))) args) /\
  (forall order mapped, snd (h_derivative junk junk2 o order args fields mapped s) =
     derivative junk junk2 (value s o) order (option_map (contents s) fields) (map (option_map (fun x => nd_vec (contents s x))) args) mapped).
Proof. exact @evaluation_is. Qed.
Print Assumptions C78_evaluation.
Example C78_example : sound ex1 0 /\ arg_ok ex1 (ARef 2 true) /\ 0 <= prod (nd_shape (contents ex1 (ARef 2 true))) /\ ~ In 2 (arrays ex1 0) /\
  arrays ex1 0 = [1; 0] /\ Forall (arg_ok ex0) [ARef 0 true] /\ Forall (opt_ok ex1) [Some (ARef 2 true)].
Proof.
  split; [exact ex1_sound|]. split; [vm_compute; split; congruence|]. split; [vm_compute; congruence|]. assert (A : arrays ex1 0 = [1; 0]) by (vm_compute; reflexivity). rewrite A.
  split; [intros I; repeat destruct I as [I|I]; try contradiction; discriminate|]. split; [reflexivity|]. split; (constructor; [vm_compute; split; congruence|constructor]).
Qed.
