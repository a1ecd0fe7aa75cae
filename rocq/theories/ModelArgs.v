(** cad.grid and cad.refine with arguments that are arrays of the caller.  np.asarray(x, dtype) returns x
    itself if x is already an array of that dtype, and what is then assigned to its entries is
    assigned in the caller's array.  The numbers computed are those of ModelCad.v.
    igakit/cad.py:223-292, 679-766 *)
From Coq Require Import ZArith List Bool.
From Verif Require Import Num Loop ModelNurbs ModelIga ModelRemove ModelCad.
Import ListNotations.
Local Open Scope Z_scope.

(** Memory holding arrays of one kind; a piece of code changes it, and returns or raises.
    The entries are those changed at igakit/cad.py:240-242, 259, 719, 723, 727. *)
Definition mem (C : Type) : Type := Z -> C.
Definition mset {C : Type} (m : mem C) (l : Z) (c : C) : mem C := fun l' => if l' =? l then c else m l'.
Definition M (C A : Type) : Type := mem C -> mem C * res A.
Definition mbind {C A B : Type} (a : M C A) (k : A -> M C B) : M C B :=
  fun m => match a m with (m', Ok x) => k x m' | (m', Raise e) => (m', Raise e) end.
Definition mlift {C A : Type} (r : res A) : M C A := fun m => (m, r).
Notation "'do' x <- a ; b" := (mbind a (fun x => b)) (at level 200, x name, a at level 100, b at level 200).
Notation "a ;! b" := (mbind a (fun _ => b)) (at level 199, right associativity).

(** An array of 32-bit integers without axes or with one axis: [zarg].  An argument: such an array of
    the caller, or anything that is converted to a new one.  igakit/cad.py:238, 247, 254 *)
Inductive iarg := IRef (l : Z) | IVal (a : zarg).
Definition icontents (m : mem zarg) (x : iarg) : zarg := match x with IRef l => m l | IVal a => a end.
Definition iread (x : iarg) : M zarg zarg := fun m => (m, Ok (icontents m x)).
Definition iwrite (x : iarg) (a : zarg) : M zarg unit :=
  fun m => (match x with IRef l => mset m l a | IVal _ => m end, Ok tt).

Section Args.
Context {N : Num}.
Variable junk : Z -> N.
Variable junk2 : Z -> Z -> N.

(** shape.shape = (1,) turns the caller's array without axes into one with one axis.
    igakit/cad.py:238-245 *)
Definition h_shape (shape : iarg) : M zarg (list Z) :=
  do a <- iread shape;
  match a with
  | ZScal k => iwrite shape (ZList [k]) ;! mlift (Ok [k])
  | ZList l => mlift (assert ((1 <=? Z.of_nat (length l)) && (Z.of_nat (length l) <=? 3)) ;;; Ok l)
  end.
(** continuity[continuity<0] += degree[continuity<0]: in the caller's array, unless repeat() made
    a new one of a single number.  igakit/cad.py:252-259 *)
Definition h_continuity (dim : nat) (degree : list Z) (continuity : option iarg) : M zarg (list Z) :=
  match continuity with
  | None => mlift (Ok (map (fun p => p - 1) degree))
  | Some c =>
      do a <- iread c;
      do l <- mlift (zexpand dim a);
      let l' := map (fun pc => if snd pc <? 0 then snd pc + fst pc else snd pc) (combine degree l) in
      match a with
      | ZScal _ => mlift (Ok l')
      | ZList _ => iwrite c (ZList l') ;! mlift (Ok l')
      end
  end.
Definition zlist (a : zarg) : list Z := match a with ZScal k => [k] | ZList l => l end.
(** igakit/cad.py:223-292.  The array of the shape is read again, as it may be the one of the
    continuity; if the degrees are, they are positive and nothing is assigned.  The arrays given for
    limits and wrap are only read. *)
Definition h_grid (shape degree : iarg) (continuity : option iarg) (limits : limarg (N:=N)) (wrap : wraparg) : M zarg (nurbs N) :=
  do sh <- h_shape shape;
  do d <- iread degree;
  do deg <- mlift (zexpand (length sh) d);
  mlift (assert (forallb (fun p => 0 <? p) deg)) ;!
  do cont <- h_continuity (length sh) deg continuity;
  mlift (assert (forallb (fun c => 0 <=? c) cont)) ;!
  do a <- iread shape;
  mlift (grid junk (zlist a) (ZList deg) (Some (ZList cont)) limits wrap).

(** Arrays of objects: None, integers, sequences of integers.  An argument of cad.refine: such an
    array of the caller, anything converted to a new one, or None.  A scalar stands for the list of
    dim copies.  igakit/cad.py:691-702 *)
Inductive oarg := ONone | ORef (l : Z) | OVal (l : list (option fact)).
Definition ocontents (m : mem (list (option fact))) (x : oarg) : option (list (option fact)) :=
  match x with ONone => None | ORef l => Some (m l) | OVal l => Some l end.
(** Arg(arg, defval): None is replaced in the array.  igakit/cad.py:691-702 *)
Definition h_arg (x : oarg) (dflt : list fact) : M (list (option fact)) (list fact) :=
  fun m => match arg_list (ocontents m x) dflt with
           | Ok r => (match x with ORef l => mset m l (map Some r) | _ => m end, Ok r)
           | Raise e => (m, Raise e)
           end.
(** np.asarray(x, dtype='i') of a list of integers; a sequence among them raises.
    igakit/cad.py:711, 727 *)
Definition as_ints (l : list fact) : res (list Z) :=
  mapM (fun f => match f with FacAll k => Ok k | FacList _ => Raise ValueError end) l.

(** igakit/cad.py:679-766.  factor[i] = np.asarray(fact) keeps the numbers. *)
Definition h_cad_refine (nrb : nurbs N) (factor degree continuity : oarg) : M (list (option fact)) (nurbs N) :=
  let axes := zseq (length (n_axes nrb)) 0 in
  do nrb <- mlift (foldM (fun nrb ax => clamp junk nrb ax None) axes nrb);
  do deg <- h_arg degree (map (fun ax => FacAll (a_deg (axz nrb ax))) axes);
  do deg <- mlift (as_ints deg);
  mlift (assert (forallb (fun p => 0 <? p) deg)) ;!
  do nrb <- mlift (foldM (fun nrb t => let '(ax, p) := t in
                 let k := p - a_deg (axz nrb ax) in
                 if 0 <? k then elevate junk junk2 nrb ax k else Ok nrb) (combine axes deg) nrb);
  let deg := map (fun ax => a_deg (axz nrb ax)) axes in
  do fac <- h_arg factor (map (fun _ => FacAll 1) axes);
  mlift (assert (forallb pos_fact fac)) ;!
  do cont <- h_arg continuity (map (fun _ => FacAll (-1)) axes);
  do cont <- mlift (as_ints cont);
  let cont := map (fun pc => if snd pc <? 0 then snd pc + fst pc else snd pc) (combine deg cont) in
  mlift (assert (forallb (fun c => 0 <=? c) cont)) ;!
  mlift (assert (forallb (fun pc => snd pc <? fst pc) (combine deg cont))) ;!
  mlift (foldM (fun nrb t => let '(ax, (f, C)) := t in
    let p := a_deg (axz nrb ax) in
    let* us := break_mults nrb ax in
    let '(u, s) := us in
    let* Ns := match f with
               | FacAll n => Ok (repeat n (length u - 1))
               | FacList l => assert (Nat.eqb (length l) (length u - 1)) ;;; Ok l
               end in
    refine junk nrb ax (concat (map (fun x => repeat (fst x) (Z.to_nat (snd x))) (tl (refine_values p C u s Ns)))))
    (combine axes (combine fac cont)) nrb).
End Args.
