(** Layout of the VTK files (legacy format, binary). *)
From Coq Require Import String Ascii ZArith List Bool.
From Verif Require Import Num ModelNurbs ModelIo SpecIo.
Import ListNotations.
Local Open Scope Z_scope.

(** A line of text. *)
Definition line (s : string) : list Z := text s ++ [10].
Section Vtk.
Context {N : Num}.
Variable enc : N -> list Z.
Variable title : string.
(** Numbers of points along the axes; number of points. *)
Variable lens : list Z.
Definition points_total : Z := Z.of_nat (length (grid_order lens)).
Definition size_along (i : nat) : string := num (nth i lens 1).
Definition vtk_head : list Z := line "# vtk DataFile Version 2.0" ++ line (substring 0 255 title) ++ line "BINARY".
Definition vtk_dimensions : list Z := line ("DIMENSIONS " ++ size_along 0 ++ " " ++ size_along 1 ++ " " ++ size_along 2).
(** The points, the first axis varying fastest, x y z of each. *)
Definition vtk_points (C : list Z -> Z -> N) : list Z :=
  line "DATASET STRUCTURED_GRID" ++ vtk_dimensions ++ line ("POINTS " ++ num points_total ++ " double") ++
  flat_map (fun idx => enc (C idx 0) ++ enc (C idx 1) ++ enc (C idx 2)) (grid_order lens) ++ [10].
(** The coordinates along the axes, a single 0 for the missing ones. *)
Definition vtk_coords (us : list (list N)) : list Z :=
  let coord := fun (X : string) i => let l := nth i us [n0 N] in line (X ++ "_COORDINATES " ++ num (Z.of_nat (length l)) ++ " double") ++ flat_map enc l ++ [10] in
  line "DATASET RECTILINEAR_GRID" ++ vtk_dimensions ++ coord "X"%string 0%nat ++ coord "Y"%string 1%nat ++ coord "Z"%string 2%nat.
(** The name of the i-th array: the one given, or a default with the number; blanks become underscores. *)
Definition underscored (s : string) : string := string_of_list_ascii (map (fun c => if ascii_dec c " " then "_"%char else c) (list_ascii_of_string s)).
Definition array_name (name dflt : string) (i : Z) : string := underscored (if string_dec name "" then dflt ++ num i else name).
(** Fields at the points, in the same order; a negative index counts from the last field. *)
Definition column (nf index : Z) : Z := if index <? 0 then index + nf else index.
Definition vtk_scalar (F : list Z -> Z -> N) (nf i : Z) (name : string) (index : Z) : list Z :=
  line ("SCALARS " ++ array_name name "scalars" i ++ " double") ++ line "LOOKUP_TABLE default" ++
  flat_map (fun idx => enc (F idx (column nf index))) (grid_order lens) ++ [10].
Definition vtk_vector (F : list Z -> Z -> N) (nf i : Z) (name : string) (index : list Z) : list Z :=
  line ("VECTORS " ++ array_name name "vectors" i ++ " double") ++
  flat_map (fun idx => flat_map enc (map (fun j => F idx (column nf j)) index ++ repeat (n0 N) (3 - length index))) (grid_order lens) ++ [10].
Definition vtk_data (F : list Z -> Z -> N) (nf : Z) (scalars : list (string * Z)) (vectors : list (string * list Z)) : list Z :=
  match scalars, vectors with
  | [], [] => []
  | _, _ => line ("POINT_DATA " ++ num points_total) ++
      concat (map (fun i => let s := nth i scalars (""%string, 0) in vtk_scalar F nf (Z.of_nat i) (fst s) (snd s)) (seq 0 (length scalars))) ++
      concat (map (fun i => let v := nth i vectors (""%string, []) in vtk_vector F nf (Z.of_nat i) (fst v) (snd v)) (seq 0 (length vectors)))
  end.
End Vtk.
