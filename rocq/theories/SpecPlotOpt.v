(** Specification of plot options, independent of how the options are worked out. *)
From Coq Require Import String ZArith Bool List Lia.
From Verif Require Import Num ModelNurbs ModelPlotOpt.
Import ListNotations.
Local Open Scope string_scope.

(** The options [o] are the caller's [kw] with the given defaults for those that are missing; the
    names in [own] are excepted. *)
Fixpoint lookup (k : string) (l : list (string * oval)) : option oval :=
  match l with [] => None | (n, v) :: r => if String.eqb k n then Some v else lookup k r end.
Definition completed (kw : opts) (defaults : list (string * oval)) (own : list string) (o : opts) : Prop :=
  forall k, ~ In k own -> o k = match kw k with Some v => Some v | None => lookup k defaults end.
(** The value of an option, if it was given, or else [d]. *)
Definition chosen (kw : opts) (k : string) (d : oval) : oval := match kw k with Some v => v | None => d end.
(** The names a method of the plotter handles itself when it draws lines or surfaces. *)
Definition wire_keys : list string := ["mode"; "representation"; "tube_radius"].
(** The options of lines, for a mode that is 'line' or 'tube': no mode; as thin lines without a
    radius, or as tubes with the caller's radius. *)
Definition wire_style (kw : opts) (dflt : string) (o : opts) : Prop :=
  o "mode" = None /\
  (chosen kw "mode" (VStr dflt) = VStr "line" /\ o "representation" = Some (VStr "wireframe") /\ o "tube_radius" = Some VNone \/
   chosen kw "mode" (VStr dflt) = VStr "tube" /\ o "representation" = Some (VStr "surface") /\ o "tube_radius" = kw "tube_radius").
(** The modes that lines accept. *)
Definition wire_mode (v : oval) : Prop := v = VStr "line" \/ v = VStr "tube".
(** The colour of curves and surfaces: the caller's, or yellow; None means none at all. *)
Definition body_color (kw o : opts) : Prop :=
  o "color" = match kw "color" with None => Some (VRgb 1 1 0) | Some VNone => None | Some c => Some c end.
(** Options of mayavi that matplotlib does not know. *)
Definition mayavi_only : list string :=
  ["name"; "representation"; "opacity"; "colormap"; "resolution"; "scale_factor"; "scale_mode"; "line_width"; "mode"; "tube_radius"; "tube_sides"].
Definition absent (ks : list string) (o : opts) : Prop := forall k, In k ks -> o k = None.
