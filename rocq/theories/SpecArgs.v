(** Vocabulary for arguments that are arrays of the caller. *)
From Coq Require Import ZArith List.
From Verif Require Import Num ModelCad ModelArgs.
Import ListNotations.
Local Open Scope Z_scope.

(** The contents of an optional argument. *)
Definition octs (m : mem zarg) (c : option iarg) : option zarg := match c with None => None | Some c => Some (icontents m c) end.
(** Objects that are None or single integers, as numbers. *)
Definition ints (l : option (list (option fact))) (l' : option (list (option Z))) : Prop := l = option_map (map (option_map FacAll)) l'.
