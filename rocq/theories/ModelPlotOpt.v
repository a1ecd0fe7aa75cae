(** Model of the options of igakit/plot.py: which function of the backend each method of [Plotter]
    calls, with which keyword arguments, what igakit/plot_mpl.py passes on to matplotlib, and how
    the backend is chosen and loaded.

    Simplifications, common to the whole file:
    - A dictionary of keyword arguments is a function from names to values that may be absent; its
      order is not modelled.  Values are None, strings, colours (three numbers) or other objects.
    - The data of the calls are those of ModelPlot.v.  A method yields the calls made so far and the
      exception that ended it, if any.
    - Returned handles, and the scaling of the glyphs by 0.125 and 0.1 done on them
      (igakit/plot.py:77-81, 115-119), are not modelled.
    - Importing a module succeeds, or raises ImportError or something else; which of these is a
      parameter (it may change from call to call). *)
From Coq Require Import String ZArith Bool List Lia.
From Verif Require Import Num Loop ModelBspline ModelBSp ModelNurbs ModelCad ModelIo ModelPlot.
Import ListNotations.
Local Open Scope string_scope.
Local Open Scope Z_scope.

(** ** Keyword arguments *)
(** Values of options, and a dictionary of them ([options = dict(kwargs)]).  igakit/plot.py:24, 57, 70, 88, 108, 141, 172, 200, 235 *)
Inductive oval := VNone | VStr (s : string) | VRgb (r g b : Z) | VObj (n : Z).
Definition opts := string -> option oval.
(** [options[k] = v].  igakit/plot.py:26, 72, 95 *)
Definition oset (k : string) (v : oval) (o : opts) : opts := fun x => if String.eqb x k then Some v else o x.
(** What [options.pop(k, None)] leaves.  igakit/plot.py:91, 201; igakit/plot_mpl.py:39-46 *)
Definition opop (k : string) (o : opts) : opts := fun x => if String.eqb x k then None else o x.
(** [if k not in options: options[k] = v].  igakit/plot.py:25-26, 71-74 *)
Definition odflt (k : string) (v : oval) (o : opts) : opts := match o k with None => oset k v o | Some _ => o end.
(** [color = options.pop('color', v); if color is not None: options['color'] = color].
    igakit/plot.py:201-203, 236-238 *)
Definition ocolor (v : oval) (o : opts) : opts :=
  match (match o "color" with None => v | Some c => c end) with
  | VNone => opop "color" o
  | c => oset "color" c (opop "color" o)
  end.
(** The colours red, green, blue and yellow of the defaults.  igakit/plot.py:72, 90, 110, 143, 174, 201, 236 *)
Definition red := VRgb 1 0 0.
Definition green := VRgb 0 1 0.
Definition blue := VRgb 0 0 1.
Definition yellow := VRgb 1 1 0.
(** The argument mode of lines: 'line' or 'tube', anything else is refused.
    igakit/plot.py:91-97, 144-150, 204-210 *)
Definition owire (dflt : string) (o : opts) : res opts :=
  let m := match o "mode" with None => VStr dflt | Some m => m end in
  let o := opop "mode" o in
  match m with
  | VStr s => if String.eqb s "line" then Ok (oset "tube_radius" VNone (oset "representation" (VStr "wireframe") o))
              else if String.eqb s "tube" then Ok (oset "representation" (VStr "surface") o)
              else Raise AssertionError
  | _ => Raise AssertionError
  end.

(** ** Calls of the backend *)
(** Exceptions: those of the model, and those that come from the backend.  igakit/plot.py:283, 306, 309, 317 *)
Inductive pexn := Err (e : exn) | AttributeError | ImportError | OtherError.
Section Model.
Context {N : Num}.
Variable junk : Z -> N.
Variable junk2 : Z -> Z -> N.
Variable junk3 : Z -> Z -> Z -> N.
Variable junkS : Z -> Z.
Let xyz : Type := ModelPlot.xyz N.

(** The calls of the backend.  igakit/plot.py:28, 61, 76, 100, 114, 153, 178, 213, 242 *)
Inductive call :=
  | Points3d (t : xyz) (o : opts)
  | Quiver3d (p v : xyz) (o : opts)
  | Line3d (ls : list xyz) (o : opts)
  | Surf3d (ss : list xyz) (o : opts).
(** The name of the function called.  igakit/plot.py:28, 61, 76, 100, 114, 153, 178, 213, 242 *)
Definition fname (c : call) : string :=
  match c with Points3d _ _ => "points3d" | Quiver3d _ _ _ => "quiver3d" | Line3d _ _ => "line3d" | Surf3d _ _ => "surf3d" end.
(** A backend: the names it defines (of the four) and its table of resolutions.
    igakit/plot_mpl.py:37, 59, 93, 133; igakit/plot_myv.py:80-81, 253-254, 258; igakit/plot_nul.py:38-43 *)
Record backend := mkBackend { bk_has : string -> bool; bk_res1 : Z; bk_res2 : Z }.
Definition bk_mpl : backend := mkBackend (fun f => negb (String.eqb f "quiver3d")) 128 16.
Definition bk_myv : backend := mkBackend (fun _ => true) 256 128.
Definition bk_nul : backend := mkBackend (fun _ => true) 64 32.

Variable bk : backend.
(** The calls made, and the exception that ended the method; a backend that lacks the function
    raises AttributeError.  igakit/plot.py:28, 61, 76, 100, 114, 153, 178, 213, 242 *)
Definition run : Type := list call * option pexn.
Definition emit (c : call) : run := if bk_has bk (fname c) then ([c], None) else ([], Some AttributeError).
Definition fail (e : pexn) : run := ([], Some e).
(** One statement after the other.  igakit/plot.py:191-192, 259-261, 266-268 *)
Definition andthen (a b : run) : run := match a with (l, Some e) => (l, Some e) | (l, None) => (l ++ fst b, snd b)%list end.
Definition lift {A : Type} (a : res A) (f : A -> run) : run := match a with Ok x => f x | Raise e => fail (Err e) end.

(** igakit/plot.py:11-29 *)
Definition m_points (P : nd N) (kw : opts) : run :=
  lift (p_points P) (fun t => emit (Points3d t (odflt "mode" (VStr "sphere") kw))).
(** igakit/plot.py:31-62 *)
Definition m_quiver (P V : nd N) (kw : opts) : run :=
  lift (p_quiver P V) (fun t => emit (Quiver3d (fst t) (snd t) (odflt "mode" (VStr "arrow") kw))).
(** igakit/plot.py:66-82 *)
Definition m_cpoint (nrb : nurbs N) (kw : opts) : run :=
  emit (Points3d (p_cpoint nrb) (odflt "mode" (VStr "sphere") (odflt "color" red kw))).
(** igakit/plot.py:84-101 *)
Definition m_cwire (nrb : nurbs N) (kw : opts) : run :=
  lift (owire "line" (odflt "color" blue kw)) (fun o => emit (Line3d (p_cwire nrb) o)).
(** igakit/plot.py:103-120 *)
Definition m_kpoint (nrb : nurbs N) (kw : opts) : run :=
  lift (p_kpoint junk junk2 junk3 junkS nrb) (fun t => emit (Points3d t (odflt "mode" (VStr "cube") (odflt "color" green kw)))).
(** igakit/plot.py:122-154 *)
Definition m_kwire (nrb : nurbs N) (axes : option (list Z)) (kw : opts) : run :=
  lift (p_kwire junk junk2 junk3 junkS (bk_res1 bk) nrb axes) (fun ls =>
  lift (owire "line" (odflt "color" green kw)) (fun o => emit (Line3d ls o))).
(** igakit/plot.py:156-179 *)
Definition m_ksurf (nrb : nurbs N) (axes : option (list Z)) (kw : opts) : run :=
  lift (p_ksurf junk junk2 junk3 junkS (bk_res2 bk) nrb axes) (fun ss =>
  emit (Surf3d ss (oset "representation" (VStr "surface") (odflt "color" green kw)))).

(** The boundaries are all made before the first of them is drawn; [fuel] as in [curve_rec].
    igakit/plot.py:183-214 *)
Fixpoint m_curve_rec (fuel : nat) (nrb : nurbs N) (kw : opts) : run :=
  match fuel with
  | O => ([], None)
  | S f =>
      if n_dim nrb <? 1 then ([], None)
      else if 1 <? n_dim nrb then
        lift (boundaries junk nrb) (fun bs => fold_left (fun r b => andthen r (m_curve_rec f b kw)) bs ([], None))
      else
        lift (sample junk junk2 junk3 junkS (bk_res1 bk) nrb) (fun C =>
        lift (owire "tube" (ocolor yellow kw)) (fun o => emit (Line3d [split3 C] o)))
  end.
Definition m_curve (nrb : nurbs N) (kw : opts) : run := m_curve_rec (length (n_axes nrb)) nrb kw.
(** igakit/plot.py:216-243 *)
Definition m_surface (nrb : nurbs N) (kw : opts) : run :=
  if n_dim nrb <? 2 then ([], None)
  else lift (p_surface junk junk2 junk3 junkS (bk_res2 bk) nrb) (fun ss =>
       emit (Surf3d ss (oset "representation" (VStr "surface") (ocolor yellow kw)))).
(** The options worked out in this method are not used: surface gets the caller's.
    igakit/plot.py:245-253 *)
Definition m_volume (nrb : nurbs N) (kw : opts) : run :=
  if n_dim nrb <? 3 then ([], None) else m_surface nrb kw.
(** igakit/plot.py:257-262 *)
Definition m_cplot (nrb : nurbs N) (kw : opts) : run := andthen (m_cpoint nrb kw) (m_cwire nrb kw).
(** kplot passes no axes, so a keyword argument axes among the options goes to kpoint as an option
    and to kwire as its argument; here the options contain none.  igakit/plot.py:264-269 *)
Definition m_kplot (nrb : nurbs N) (kw : opts) : run := andthen (m_kpoint nrb kw) (m_kwire nrb None kw).
(** igakit/plot.py:271-278 *)
Definition m_plot (nrb : nurbs N) (kw : opts) : run :=
  if n_dim nrb =? 1 then m_curve nrb kw
  else if n_dim nrb =? 2 then m_surface nrb kw
  else if n_dim nrb =? 3 then m_volume nrb kw
  else ([], None).

(** ** What plot_mpl.py passes on *)
(** A series of [options.pop(k, None)].  igakit/plot_mpl.py:39-46, 61-68, 95-104 *)
Definition pops (ks : list string) (o : opts) : opts := fold_left (fun o k => opop k o) ks o.
(** Keyword arguments of ax.scatter besides s.  igakit/plot_mpl.py:37-57 *)
Definition mpl_points_opts (o : opts) : opts :=
  let o := pops ["name"; "representation"; "opacity"; "colormap"; "resolution"; "scale_factor"; "scale_mode"; "line_width"] o in
  let m := match o "mode" with None => VStr "sphere" | Some m => m end in
  let o := opop "mode" o in
  match m with
  | VStr s => if String.eqb s "sphere" then oset "marker" (VStr "o") o
              else if String.eqb s "cube" then oset "marker" (VStr "s") o
              else if String.eqb s "cone" then oset "marker" (VStr "^") o
              else o
  | _ => o
  end.
(** Keyword arguments of ax.plot; ax.plot_wireframe gets rstride and cstride too.
    igakit/plot_mpl.py:59-91 *)
Definition mpl_line_opts (o : opts) : opts :=
  pops ["name"; "representation"; "opacity"; "colormap"; "resolution"; "tube_radius"; "tube_sides"; "line_width"] o.
(** Keyword arguments of ax.plot_surface; [VObj 1] stands for True and 1, [VObj 0] for 0 and
    [VObj 2] for the colour map jet.  igakit/plot_mpl.py:93-119 *)
Definition mpl_surf_opts (o : opts) : opts :=
  let o := pops ["name"; "representation"; "opacity"; "colormap"; "resolution"; "scale_factor"; "scale_mode"; "tube_radius"; "tube_sides"; "line_width"] o in
  let o := oset "cstride" (VObj 1) (oset "rstride" (VObj 1) o) in
  let o := odflt "linewidth" (VObj 0) o in
  let o := match o "color", o "cmap" with None, None => oset "cmap" (VObj 2) o | _, _ => o end in
  oset "antialiased" (VObj 1) (oset "shade" (VObj 1) o).
(** What each function of plot_mpl.py passes on; it has no quiver3d, whose line is not used.
    igakit/plot_mpl.py:57, 75, 79, 86, 91, 118 *)
Definition mpl_opts (c : call) : opts :=
  match c with
  | Points3d _ o => mpl_points_opts o
  | Quiver3d _ _ o => o
  | Line3d _ o => mpl_line_opts o
  | Surf3d _ o => mpl_surf_opts o
  end.
End Model.

(** ** The choice of the backend *)
(** What an attempt to import a module does.  igakit/plot.py:309 *)
Inductive import := Loaded | NotFound | Broken.
(** The modules that are loaded (the class attribute _modules) and the backend of each plotter
    (_backend, None at first).  [imports] records the imports that succeeded, latest first: it is
    not part of the program.  igakit/plot.py:285-296 *)
Record pstate := mkPs { ps_modules : string -> bool; ps_backend : nat -> option string; ps_imports : list string }.
(** The initial state, the names of modules and their other names.  igakit/plot.py:285-296 *)
Definition ps0 : pstate := mkPs (fun _ => false) (fun _ => None) [].
Definition known (name : string) : bool := String.eqb name "mpl" || String.eqb name "myv" || String.eqb name "nul".
Definition alias (b : string) : string :=
  if String.eqb b "matplotlib" then "mpl" else if String.eqb b "mayavi" then "myv"
  else if String.eqb b "null" then "nul" else if String.eqb b "none" then "nul" else b.
(** [self._backend = module].  igakit/plot.py:311 *)
Definition upd {A : Type} (f : nat -> A) (i : nat) (a : A) : nat -> A := fun k => if Nat.eqb k i then a else f k.
(** [plotter.use(b)], plotter number [i].  igakit/plot.py:298-311 *)
Definition set_backend (imp : string -> import) (i : nat) (b : string) (s : pstate) : pstate * option pexn :=
  let name := alias b in
  if negb (known name) then (s, Some (Err ValueError))
  else if ps_modules s name then (mkPs (ps_modules s) (upd (ps_backend s) i (Some name)) (ps_imports s), None)
  else match imp name with
       | Loaded => (mkPs (fun k => if String.eqb k name then true else ps_modules s k) (upd (ps_backend s) i (Some name)) (name :: ps_imports s), None)
       | NotFound => (s, Some ImportError)
       | Broken => (s, Some OtherError)
       end.
(** [plotter.backend]: mayavi, or else matplotlib, if none was chosen.  igakit/plot.py:313-319 *)
Definition get_backend (imp : string -> import) (i : nat) (s : pstate) : pstate * option pexn :=
  match ps_backend s i with
  | Some _ => (s, None)
  | None => match set_backend imp i "mayavi" s with
            | (s', Some ImportError) => set_backend imp i "matplotlib" s'
            | r => r
            end
  end.
(** What a program does with plotters: choose a backend, or use it in any way, which asks for the
    backend first.  igakit/plot.py:282-283, 298-299, 313-319 *)
Inductive pop := Use (imp : string -> import) (i : nat) (b : string) | Get (imp : string -> import) (i : nat).
Definition pstep (s : pstate) (p : pop) : pstate := fst match p with Use imp i b => set_backend imp i b s | Get imp i => get_backend imp i s end.
Definition prun (l : list pop) (s : pstate) : pstate := fold_left pstep l s.
