(** Options of plots, and the choice of the backend.
    Code: igakit/plot.py, igakit/plot_mpl.py.  The vocabulary ([completed], [wire_style], [body_color],
    [mayavi_only]) is that of SpecPlotOpt.v; the data handed over ([p_curve] and so on) are those of
    ModelPlot.v, which C97 and C98 relate to the object. *)
From Coq Require Import String ZArith Reals QArith List Lia Lra Bool.
From Verif Require Import Num Loop ModelBspline ModelBSp ModelNurbs ModelCad ModelIo ModelPlot ModelPlotOpt SpecPlotOpt ProofPlotOpt PropRefuted.
Import ListNotations.
Local Open Scope string_scope.
Local Open Scope Z_scope.

(** ** C111: the caller's options reach the backend, with defaults for the missing ones. *)
Theorem C111_points : forall (N : Num) bk (P : nd N) t kw, bk_has bk "points3d" = true -> p_points P = Ok t ->
  exists o, m_points bk P kw = ([Points3d t o], None) /\ completed kw [("mode", VStr "sphere")] [] o.
Proof. exact @options_points. Qed.
Print Assumptions C111_points.
Theorem C111_quiver : forall (N : Num) bk (P V : nd N) p v kw, bk_has bk "quiver3d" = true -> p_quiver P V = Ok (p, v) ->
  exists o, m_quiver bk P V kw = ([Quiver3d p v o], None) /\ completed kw [("mode", VStr "arrow")] [] o.
Proof. exact @options_quiver. Qed.
Print Assumptions C111_quiver.
Theorem C111_cpoint : forall (N : Num) bk (nrb : nurbs N) kw, bk_has bk "points3d" = true ->
  exists o, m_cpoint bk nrb kw = ([Points3d (p_cpoint nrb) o], None) /\ completed kw [("color", VRgb 1 0 0); ("mode", VStr "sphere")] [] o.
Proof. exact @options_cpoint. Qed.
Print Assumptions C111_cpoint.
Theorem C111_kpoint : forall (N : Num) j j2 j3 jS bk (nrb : nurbs N) t kw, bk_has bk "points3d" = true -> p_kpoint j j2 j3 jS nrb = Ok t ->
  exists o, m_kpoint j j2 j3 jS bk nrb kw = ([Points3d t o], None) /\ completed kw [("color", VRgb 0 1 0); ("mode", VStr "cube")] [] o.
Proof. exact @options_kpoint. Qed.
Print Assumptions C111_kpoint.
Theorem C111_cwire : forall (N : Num) bk (nrb : nurbs N) kw, bk_has bk "line3d" = true -> wire_mode (chosen kw "mode" (VStr "line")) ->
  exists o, m_cwire bk nrb kw = ([Line3d (p_cwire nrb) o], None) /\ completed kw [("color", VRgb 0 0 1)] wire_keys o /\ wire_style kw "line" o.
Proof. exact @options_cwire. Qed.
Print Assumptions C111_cwire.
Theorem C111_kwire : forall (N : Num) j j2 j3 jS bk (nrb : nurbs N) axes ls kw, bk_has bk "line3d" = true -> wire_mode (chosen kw "mode" (VStr "line")) ->
  p_kwire j j2 j3 jS (bk_res1 bk) nrb axes = Ok ls ->
  exists o, m_kwire j j2 j3 jS bk nrb axes kw = ([Line3d ls o], None) /\ completed kw [("color", VRgb 0 1 0)] wire_keys o /\ wire_style kw "line" o.
Proof. exact @options_kwire. Qed.
Print Assumptions C111_kwire.
Theorem C111_ksurf : forall (N : Num) j j2 j3 jS bk (nrb : nurbs N) axes ss kw, bk_has bk "surf3d" = true -> p_ksurf j j2 j3 jS (bk_res2 bk) nrb axes = Ok ss ->
  exists o, m_ksurf j j2 j3 jS bk nrb axes kw = ([Surf3d ss o], None) /\ completed kw [("color", VRgb 0 1 0)] ["representation"] o /\
    o "representation" = Some (VStr "surface").
Proof. exact @options_ksurf. Qed.
Print Assumptions C111_ksurf.
(** [curve] draws each of its lines with the same options (also the boundaries of surfaces and volumes). *)
Theorem C111_curve : forall (N : Num) j j2 j3 jS bk (nrb : nurbs N) ls kw, bk_has bk "line3d" = true -> wire_mode (chosen kw "mode" (VStr "tube")) ->
  p_curve j j2 j3 jS (bk_res1 bk) nrb = Ok ls ->
  exists o, m_curve j j2 j3 jS bk nrb kw = (map (fun l => Line3d [l] o) ls, None) /\
    completed kw [] ("color" :: wire_keys) o /\ wire_style kw "tube" o /\ body_color kw o.
Proof. exact @options_curve. Qed.
Print Assumptions C111_curve.
Theorem C111_surface : forall (N : Num) j j2 j3 jS bk (nrb : nurbs N) ss kw, bk_has bk "surf3d" = true -> 2 <= n_dim nrb -> p_surface j j2 j3 jS (bk_res2 bk) nrb = Ok ss ->
  exists o, m_surface j j2 j3 jS bk nrb kw = ([Surf3d ss o], None) /\
    completed kw [] ["color"; "representation"] o /\ o "representation" = Some (VStr "surface") /\ body_color kw o.
Proof. exact @options_surface. Qed.
Print Assumptions C111_surface.
Theorem C111_plot : forall (N : Num) j j2 j3 jS bk (nrb : nurbs N) ls ss kw, bk_has bk "line3d" = true -> bk_has bk "surf3d" = true -> 1 <= n_dim nrb <= 3 ->
  (n_dim nrb = 1 -> wire_mode (chosen kw "mode" (VStr "tube"))) ->
  p_plot j j2 j3 jS (bk_res1 bk) (bk_res2 bk) nrb = Ok (ls, ss) ->
  exists o, m_plot j j2 j3 jS bk nrb kw = ((map (fun l => Line3d [l] o) ls ++ if n_dim nrb =? 1 then [] else [Surf3d ss o])%list, None) /\
    completed kw [] (if n_dim nrb =? 1 then "color" :: wire_keys else ["color"; "representation"]) o /\ body_color kw o.
Proof. exact @options_plot. Qed.
Print Assumptions C111_plot.
(** [cplot] and [kplot] draw the points and then the lines; both get the caller's options, not those
    worked out for the other. *)
Theorem C111_cplot : forall (N : Num) bk (nrb : nurbs N) kw, bk_has bk "points3d" = true -> bk_has bk "line3d" = true -> wire_mode (chosen kw "mode" (VStr "line")) ->
  exists o o', m_cplot bk nrb kw = ([Points3d (p_cpoint nrb) o; Line3d (p_cwire nrb) o'], None) /\
    completed kw [("color", VRgb 1 0 0); ("mode", VStr "sphere")] [] o /\ completed kw [("color", VRgb 0 0 1)] wire_keys o' /\ wire_style kw "line" o'.
Proof. exact @options_cplot. Qed.
Print Assumptions C111_cplot.
Theorem C111_kplot : forall (N : Num) j j2 j3 jS bk (nrb : nurbs N) t ls kw, bk_has bk "points3d" = true -> bk_has bk "line3d" = true -> wire_mode (chosen kw "mode" (VStr "line")) ->
  p_kpoint j j2 j3 jS nrb = Ok t -> p_kwire j j2 j3 jS (bk_res1 bk) nrb None = Ok ls ->
  exists o o', m_kplot j j2 j3 jS bk nrb kw = ([Points3d t o; Line3d ls o'], None) /\
    completed kw [("color", VRgb 0 1 0); ("mode", VStr "cube")] [] o /\ completed kw [("color", VRgb 0 1 0)] wire_keys o' /\ wire_style kw "line" o'.
Proof. exact @options_kplot. Qed.
Print Assumptions C111_kplot.
(** A mode that lines do not have is refused; [cplot] has drawn the points by then. *)
Theorem C111_refused : forall (N : Num) bk (nrb : nurbs N) kw, ~ wire_mode (chosen kw "mode" (VStr "line")) ->
  m_cwire bk nrb kw = ([], Some (Err AssertionError)) /\
  (bk_has bk "points3d" = true -> m_cplot bk nrb kw = (fst (m_cpoint bk nrb kw), Some (Err AssertionError)) /\ fst (m_cpoint bk nrb kw) <> []).
Proof. exact @refused_mode. Qed.
Print Assumptions C111_refused.
(** So a mode given to [cplot] never suits both the points and the lines: it reaches the points, and
    is accepted by the lines only if it is no mode of points. *)
Theorem C111_cplot_mode : forall (N : Num) bk (nrb : nurbs N) kw m, bk_has bk "points3d" = true -> bk_has bk "line3d" = true -> kw "mode" = Some m ->
  (exists o, In (Points3d (p_cpoint nrb) o) (fst (m_cplot bk nrb kw)) /\ o "mode" = Some m) /\
  (snd (m_cplot bk nrb kw) = None <-> wire_mode m).
Proof. exact @cplot_mode. Qed.
Print Assumptions C111_cplot_mode.
Theorem C111_cplot_refuted : exists kw : opts, kw "mode" = Some (VStr "sphere") /\
  snd (m_cpoint bk_myv (crv 3 [0;0;0;1;1;1]%Q [0;1;3]%Q) kw) = None /\
  snd (m_cplot bk_myv (crv 3 [0;0;0;1;1;1]%Q [0;1;3]%Q) kw) = Some (Err AssertionError).
Proof. exists (fun k => if String.eqb k "mode" then Some (VStr "sphere") else None). repeat split; reflexivity. Qed.
Print Assumptions C111_cplot_refuted.
(** Arrows cannot be drawn with matplotlib: that backend has no quiver3d. *)
Theorem C111_quiver_mpl_refuted : exists (P V : nd Qn) p v, p_quiver P V = Ok (p, v) /\ forall kw, m_quiver bk_mpl P V kw = ([], Some AttributeError).
Proof. exists (mkNd (N:=Qn) [2; 2] (fun _ => 1%Q)), (mkNd (N:=Qn) [2; 2] (fun _ => 3%Q)). do 2 eexists. split; reflexivity. Qed.
Print Assumptions C111_quiver_mpl_refuted.

(** matplotlib gets no option that only mayavi knows, if ... *)
Theorem C111_mpl : forall (N : Num) o,
  (forall t : xyz N, o "tube_radius" = None -> o "tube_sides" = None -> absent mayavi_only (mpl_opts (Points3d t o))) /\
  (forall ls : list (xyz N), o "scale_factor" = None -> o "scale_mode" = None -> o "mode" = None -> absent mayavi_only (mpl_opts (Line3d ls o))) /\
  (forall ss : list (xyz N), o "mode" = None -> absent mayavi_only (mpl_opts (Surf3d ss o))).
Proof.
  intros N o. split; [intros t; exact (mpl_points_clean o)|]. split; [intros ls; exact (mpl_line_clean o)|]. intros ss. exact (mpl_surf_clean o).
Qed.
Print Assumptions C111_mpl.
(** ... and otherwise it may: glyph sizes go to the lines of cplot, a tube radius to its points. *)
Theorem C111_mpl_refuted : exists kw : opts, (forall k, kw k <> None -> In k ["scale_factor"; "tube_radius"]) /\
  snd (m_cplot bk_mpl (crv 3 [0;0;0;1;1;1]%Q [0;1;3]%Q) kw) = None /\
  map (fun c => (mpl_opts c "scale_factor", mpl_opts c "tube_radius")) (fst (m_cplot bk_mpl (crv 3 [0;0;0;1;1;1]%Q [0;1;3]%Q) kw))
    = [(None, Some (VObj 7)); (Some (VObj 5), None)].
Proof.
  exists (fun k => if String.eqb k "scale_factor" then Some (VObj 5) else if String.eqb k "tube_radius" then Some (VObj 7) else None). split.
  - intros k. cbn [In]. destruct (String.eqb_spec k "scale_factor"); [auto|]. destruct (String.eqb_spec k "tube_radius"); [auto|]. congruence.
  - split; reflexivity.
Qed.
Print Assumptions C111_mpl_refuted.
(** Colours are passed on; surfaces without colour and colour map get the default map. *)
Theorem C111_mpl_color : forall (N : Num) o,
  (forall t : xyz N, mpl_opts (Points3d t o) "color" = o "color") /\
  (forall ls : list (xyz N), mpl_opts (Line3d ls o) "color" = o "color") /\
  (forall ss : list (xyz N), mpl_opts (Surf3d ss o) "color" = o "color" /\
     mpl_opts (Surf3d ss o) "cmap" = match o "color", o "cmap" with None, None => Some (VObj 2) | _, _ => o "cmap" end).
Proof.
  intros N o. split; [intros t; apply mpl_points_color; cbn; auto|]. split; [reflexivity|]. intros ss. exact (mpl_surf_color o).
Qed.
Print Assumptions C111_mpl_color.
(** Points get the marker of their mode; every other option arrives as it was. *)
Theorem C111_mpl_points : forall (N : Num) o (t : xyz N),
  (o "mode" = None \/ o "mode" = Some (VStr "sphere") -> mpl_opts (Points3d t o) "marker" = Some (VStr "o")) /\
  (o "mode" = Some (VStr "cube") -> mpl_opts (Points3d t o) "marker" = Some (VStr "s")) /\
  (o "mode" = Some (VStr "cone") -> mpl_opts (Points3d t o) "marker" = Some (VStr "^")) /\
  forall k, ~ In k mayavi_only -> k <> "marker" -> mpl_opts (Points3d t o) k = o k.
Proof. intros N o t. exact (mpl_points_marker o). Qed.
Print Assumptions C111_mpl_points.
Theorem C111_mpl_lines : forall (N : Num) o (ls : list (xyz N)) k, ~ In k mayavi_only -> mpl_opts (Line3d ls o) k = o k.
Proof. intros N o ls. exact (mpl_line_kept o). Qed.
Print Assumptions C111_mpl_lines.
(** Surfaces are drawn with every line of the grid, shaded, and without edges unless asked for. *)
Theorem C111_mpl_surfaces : forall (N : Num) o (ss : list (xyz N)),
  (forall k, In k ["rstride"; "cstride"; "shade"; "antialiased"] -> mpl_opts (Surf3d ss o) k = Some (VObj 1)) /\
  mpl_opts (Surf3d ss o) "linewidth" = Some (chosen o "linewidth" (VObj 0)) /\
  forall k, ~ In k mayavi_only -> ~ In k ["rstride"; "cstride"; "shade"; "antialiased"; "linewidth"; "cmap"] -> mpl_opts (Surf3d ss o) k = o k.
Proof. intros N o ss. exact (mpl_surf_kept o). Qed.
Print Assumptions C111_mpl_surfaces.

(** A curve drawn in blue as thin lines with a name, and a surface without colour. *)
Definition exKw : opts := fun k => if String.eqb k "color" then Some (VRgb 0 0 1) else if String.eqb k "mode" then Some (VStr "line") else if String.eqb k "name" then Some (VStr "arc") else None.
Definition shown (o : opts) : list (option oval) := map o ["color"; "mode"; "name"; "representation"; "tube_radius"; "opacity"].
Definition kw_of (c : call (N:=Qn)) : opts := match c with Points3d _ o => o | Quiver3d _ _ o => o | Line3d _ o => o | Surf3d _ o => o end.
Example C111_example : wire_mode (chosen exKw "mode" (VStr "tube")) /\
  (exists ls, p_curve zj (fun _ _ => 0%Q) (fun _ _ _ => 0%Q) (fun _ => 0) 64 (crv 3 [0;0;0;1;1;1]%Q [0;1;3]%Q) = Ok ls) /\
  map (fun c => shown (kw_of c)) (fst (m_plot zj (fun _ _ => 0%Q) (fun _ _ _ => 0%Q) (fun _ => 0) bk_nul (crv 3 [0;0;0;1;1;1]%Q [0;1;3]%Q) exKw))
    = [[Some (VRgb 0 0 1); None; Some (VStr "arc"); Some (VStr "wireframe"); Some VNone; None]] /\
  ~ wire_mode (chosen (fun k => if String.eqb k "mode" then Some (VStr "cube") else None) "mode" (VStr "line")) /\
  known (alias "none") = true.
Proof.
  split; [left; reflexivity|]. split; [eexists; reflexivity|]. split; [reflexivity|]. split; [|reflexivity]. intros [H|H]; discriminate.
Qed.

(** ** C112: the choice of the backend. *)
(** A successful choice changes the backend of that plotter only; a failed one changes nothing. *)
Theorem C112_use : forall imp i b s s' r, set_backend imp i b s = (s', r) ->
  match r with
  | None => ps_backend s' i = Some (alias b) /\ known (alias b) = true /\ forall k, k <> i -> ps_backend s' k = ps_backend s k
  | Some _ => s' = s
  end.
Proof. exact use_effect. Qed.
Print Assumptions C112_use.
Theorem C112_unknown : forall imp i b s, ~ In b ["mpl"; "myv"; "nul"; "matplotlib"; "mayavi"; "null"; "none"] -> set_backend imp i b s = (s, Some (Err ValueError)).
Proof. exact use_unknown. Qed.
Print Assumptions C112_unknown.
(** What each name stands for, and what happens if its module cannot be loaded. *)
Theorem C112_names : forall imp i s b n,
  In (b, n) [("mpl", "mpl"); ("myv", "myv"); ("nul", "nul"); ("matplotlib", "mpl"); ("mayavi", "myv"); ("null", "nul"); ("none", "nul")] ->
  (ps_modules s n = true \/ imp n = Loaded -> exists s', set_backend imp i b s = (s', None) /\ ps_backend s' i = Some n /\ ps_modules s' n = true) /\
  (ps_modules s n = false -> imp n = NotFound -> set_backend imp i b s = (s, Some ImportError)) /\
  (ps_modules s n = false -> imp n = Broken -> set_backend imp i b s = (s, Some OtherError)).
Proof. exact use_names. Qed.
Print Assumptions C112_names.
(** Without a choice: mayavi if it can be loaded, matplotlib if mayavi is not there. *)
Theorem C112_default : forall imp i s, ps_backend s i = None ->
  (ps_modules s "myv" = true \/ imp "myv" = Loaded -> exists s', get_backend imp i s = (s', None) /\ ps_backend s' i = Some "myv") /\
  (ps_modules s "myv" = false -> imp "myv" = NotFound -> ps_modules s "mpl" = true \/ imp "mpl" = Loaded ->
     exists s', get_backend imp i s = (s', None) /\ ps_backend s' i = Some "mpl").
Proof. exact get_default. Qed.
Print Assumptions C112_default.
(** A mayavi that is there but fails to load is not replaced by matplotlib: the error is passed on. *)
Theorem C112_default_fails : forall imp i s, ps_backend s i = None -> ps_modules s "myv" = false ->
  (imp "myv" = Broken -> get_backend imp i s = (s, Some OtherError)) /\
  (imp "myv" = NotFound -> ps_modules s "mpl" = false -> imp "mpl" = NotFound -> get_backend imp i s = (s, Some ImportError)).
Proof. exact get_fails. Qed.
Print Assumptions C112_default_fails.
(** Whatever a program does with its plotters, a backend stays until that plotter chooses another, ... *)
Theorem C112_kept : forall l s i n, ps_backend s i = Some n -> (forall imp b, ~ In (Use imp i b) l) -> ps_backend (prun l s) i = Some n.
Proof. exact backend_kept. Qed.
Print Assumptions C112_kept.
(** ... and no module is loaded twice. *)
Theorem C112_once : forall l, NoDup (ps_imports (prun l ps0)) /\
  forall i n, ps_backend (prun l ps0) i = Some n -> In n ["mpl"; "myv"; "nul"] /\ In n (ps_imports (prun l ps0)).
Proof.
  intros l. destruct (reach_ok l) as (H1 & _ & H3). split; auto. intros i n E. destruct (H3 i n E) as [K I]. split; auto.
  unfold known in K. apply orb_prop in K. destruct K as [K|K]; [apply orb_prop in K; destruct K as [K|K]|]; apply String.eqb_eq in K; subst; cbn; auto.
Qed.
Print Assumptions C112_once.
Example C112_example : let imp := fun n => if String.eqb n "myv" then NotFound else Loaded in
  let s := prun [Get imp 0; Use imp 1 "none"; Use imp 2 "gnuplot"; Use imp 0 "mayavi"; Get imp 2; Use imp 1 "mpl"] ps0 in
  ps_backend s 0%nat = Some "mpl" /\ ps_backend s 1%nat = Some "mpl" /\ ps_backend s 2%nat = Some "mpl" /\ ps_imports s = ["nul"; "mpl"].
Proof. repeat split; reflexivity. Qed.
