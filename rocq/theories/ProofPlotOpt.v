(** Options of plots and choice of the backend: lemmas for C111 and C112. *)
From Coq Require Import String ZArith Bool List Lia.
From Verif Require Import Num Loop ModelBspline ModelBSp ModelNurbs ModelCad ModelIo ModelPlot ModelPlotOpt SpecPlotOpt.
Import ListNotations.
Local Open Scope string_scope.
Local Open Scope Z_scope.

Ltac keys := repeat match goal with
  | |- context [String.eqb ?a ?b] => destruct (String.eqb_spec a b); subst; try discriminate; try congruence
  | H : context [String.eqb ?a ?b] |- _ => destruct (String.eqb_spec a b); subst; try discriminate; try congruence end.
Lemma odflt_get k v o x : odflt k v o x = match o x with Some w => Some w | None => if String.eqb x k then Some v else None end.
Proof. unfold odflt, oset. destruct (o k) eqn:E; [destruct (o x) eqn:Ex; auto; keys; congruence|]. keys; [rewrite E; auto|destruct (o x); auto]. Qed.
Lemma oset_get k v o x : oset k v o x = if String.eqb x k then Some v else o x.
Proof. reflexivity. Qed.
Lemma ocolor_get kw x : ocolor yellow kw x = if String.eqb x "color" then (match kw "color" with None => Some yellow | Some VNone => None | Some c => Some c end) else kw x.
Proof. unfold ocolor, oset, opop, yellow. destruct (kw "color") as [[]|] eqn:E; keys. Qed.
Lemma owire_ok dflt o : wire_mode (chosen o "mode" (VStr dflt)) -> exists o', owire dflt o = Ok o' /\ (forall k, ~ In k wire_keys -> o' k = o k) /\ wire_style o dflt o'.
Proof.
  unfold wire_mode, chosen, owire, wire_style. intros [E|E]; unfold chosen; rewrite E; cbn [String.eqb]; (eexists; split; [reflexivity|]); (split; [intros k Hk; unfold oset, opop; cbn [wire_keys In] in Hk; keys; exfalso; apply Hk; auto|]).
  - split; [reflexivity|]. left. repeat split; reflexivity.
  - split; [reflexivity|]. right. repeat split; reflexivity.
Qed.
Lemma owire_refuses dflt o : ~ wire_mode (chosen o "mode" (VStr dflt)) -> owire dflt o = Raise AssertionError.
Proof.
  unfold wire_mode, chosen, owire. intros H. destruct (match o "mode" with Some v => v | None => VStr dflt end) as [|s| |]; auto.
  destruct (String.eqb_spec s "line"); [subst; exfalso; apply H; auto|]. destruct (String.eqb_spec s "tube"); [subst; exfalso; apply H; auto|]. reflexivity.
Qed.

Section Options.
Context {N : Num}.
Variable junk : Z -> N.
Variable junk2 : Z -> Z -> N.
Variable junk3 : Z -> Z -> Z -> N.
Variable junkS : Z -> Z.
Variable bk : backend.

Lemma emit_ok (c : call (N:=N)) : bk_has bk (fname c) = true -> emit bk c = ([c], None).
Proof. intros H. unfold emit. rewrite H. reflexivity. Qed.

Theorem options_points P t kw : bk_has bk "points3d" = true -> p_points (N:=N) P = Ok t ->
  exists o, m_points bk P kw = ([Points3d t o], None) /\ completed kw [("mode", VStr "sphere")] [] o.
Proof.
  intros B E. unfold m_points. rewrite E. cbn [lift]. rewrite emit_ok by auto. eexists. split; [reflexivity|]. intros k _. apply odflt_get.
Qed.
Theorem options_quiver P V p v kw : bk_has bk "quiver3d" = true -> p_quiver (N:=N) P V = Ok (p, v) ->
  exists o, m_quiver bk P V kw = ([Quiver3d p v o], None) /\ completed kw [("mode", VStr "arrow")] [] o.
Proof.
  intros B E. unfold m_quiver. rewrite E. cbn [lift fst snd]. rewrite emit_ok by auto. eexists. split; [reflexivity|]. intros k _. apply odflt_get.
Qed.
Lemma two_defaults kw c m k : odflt "mode" m (odflt "color" c kw) k = match kw k with Some v => Some v | None => lookup k [("color", c); ("mode", m)] end.
Proof. rewrite !odflt_get. cbn [lookup]. destruct (kw k); auto. destruct (String.eqb k "color"); auto. Qed.
Theorem options_cpoint nrb kw : bk_has bk "points3d" = true ->
  exists o, m_cpoint (N:=N) bk nrb kw = ([Points3d (p_cpoint nrb) o], None) /\ completed kw [("color", VRgb 1 0 0); ("mode", VStr "sphere")] [] o.
Proof. intros B. unfold m_cpoint. rewrite emit_ok by auto. eexists. split; [reflexivity|]. intros k _. apply two_defaults. Qed.
Theorem options_kpoint nrb t kw : bk_has bk "points3d" = true -> p_kpoint junk junk2 junk3 junkS nrb = Ok t ->
  exists o, m_kpoint (N:=N) junk junk2 junk3 junkS bk nrb kw = ([Points3d t o], None) /\ completed kw [("color", VRgb 0 1 0); ("mode", VStr "cube")] [] o.
Proof. intros B E. unfold m_kpoint. rewrite E. cbn [lift]. rewrite emit_ok by auto. eexists. split; [reflexivity|]. intros k _. apply two_defaults. Qed.
Lemma chosen_color kw c d : chosen (odflt "color" c kw) "mode" d = chosen kw "mode" d.
Proof. unfold chosen. rewrite odflt_get. cbn [String.eqb]. destruct (kw "mode"); auto. Qed.
Lemma wire_color kw c dflt : wire_mode (chosen kw "mode" (VStr dflt)) ->
  exists o, owire dflt (odflt "color" c kw) = Ok o /\ completed kw [("color", c)] wire_keys o /\ wire_style kw dflt o.
Proof.
  intros H. rewrite <- (chosen_color kw c) in H. destruct (owire_ok _ _ H) as (o & E & K & S1). exists o. split; auto. split.
  - intros k Hk. rewrite K by auto. rewrite odflt_get. cbn [lookup]. reflexivity.
  - assert (T1 : odflt "color" c kw "tube_radius" = kw "tube_radius") by (rewrite odflt_get; destruct (kw "tube_radius"); reflexivity).
    unfold wire_style in *. rewrite chosen_color, T1 in S1. exact S1.
Qed.
Theorem options_cwire nrb kw : bk_has bk "line3d" = true -> wire_mode (chosen kw "mode" (VStr "line")) ->
  exists o, m_cwire (N:=N) bk nrb kw = ([Line3d (p_cwire nrb) o], None) /\ completed kw [("color", VRgb 0 0 1)] wire_keys o /\ wire_style kw "line" o.
Proof.
  intros B H. destruct (wire_color kw blue "line" H) as (o & E & K). exists o. split; auto. unfold m_cwire. rewrite E. cbn [lift]. apply emit_ok; auto.
Qed.
Theorem options_kwire nrb axes ls kw : bk_has bk "line3d" = true -> wire_mode (chosen kw "mode" (VStr "line")) ->
  p_kwire junk junk2 junk3 junkS (bk_res1 bk) nrb axes = Ok ls ->
  exists o, m_kwire (N:=N) junk junk2 junk3 junkS bk nrb axes kw = ([Line3d ls o], None) /\ completed kw [("color", VRgb 0 1 0)] wire_keys o /\ wire_style kw "line" o.
Proof.
  intros B H E1. destruct (wire_color kw green "line" H) as (o & E & K). exists o. split; auto. unfold m_kwire. rewrite E1. cbn [lift]. rewrite E. cbn [lift]. apply emit_ok; auto.
Qed.
Theorem options_ksurf nrb axes ss kw : bk_has bk "surf3d" = true -> p_ksurf junk junk2 junk3 junkS (bk_res2 bk) nrb axes = Ok ss ->
  exists o, m_ksurf (N:=N) junk junk2 junk3 junkS bk nrb axes kw = ([Surf3d ss o], None) /\ completed kw [("color", VRgb 0 1 0)] ["representation"] o /\
    o "representation" = Some (VStr "surface").
Proof.
  intros B E. unfold m_ksurf. rewrite E. cbn [lift]. rewrite emit_ok by auto. eexists. split; [reflexivity|]. split; [|reflexivity].
  intros k Hk. rewrite oset_get, odflt_get. cbn [lookup]. cbn [In] in Hk. destruct (String.eqb_spec k "representation"); [exfalso; auto|]. reflexivity.
Qed.
Lemma body_wire kw : wire_mode (chosen kw "mode" (VStr "tube")) ->
  exists o, owire "tube" (ocolor yellow kw) = Ok o /\ completed kw [] ("color" :: wire_keys) o /\ wire_style kw "tube" o /\ body_color kw o.
Proof.
  intros H. assert (HC : chosen (ocolor yellow kw) "mode" (VStr "tube") = chosen kw "mode" (VStr "tube")) by (unfold chosen; rewrite ocolor_get; reflexivity).
  rewrite <- HC in H. destruct (owire_ok _ _ H) as (o & E & K & S1). exists o. split; auto. split; [|split].
  - intros k Hk. cbn [In] in Hk. rewrite K by tauto. rewrite ocolor_get. cbn [lookup]. destruct (String.eqb_spec k "color"); [exfalso; auto|]. destruct (kw k); auto.
  - unfold wire_style in *. rewrite HC, ocolor_get in S1. exact S1.
  - unfold body_color. rewrite K by (cbn; intuition discriminate). rewrite ocolor_get. reflexivity.
Qed.
Theorem options_curve nrb ls kw : bk_has bk "line3d" = true -> wire_mode (chosen kw "mode" (VStr "tube")) ->
  p_curve junk junk2 junk3 junkS (bk_res1 bk) nrb = Ok ls ->
  exists o, m_curve (N:=N) junk junk2 junk3 junkS bk nrb kw = (map (fun l => Line3d [l] o) ls, None) /\
    completed kw [] ("color" :: wire_keys) o /\ wire_style kw "tube" o /\ body_color kw o.
Proof.
  intros B H E. destruct (body_wire kw H) as (o & Eo & K). exists o. split; auto. clear K H. unfold m_curve, p_curve in *.
  revert nrb ls E. generalize (@length (axis N)). intros len nrb. generalize (len (n_axes nrb)) as fuel. intros fuel. revert nrb.
  induction fuel as [|f IH]; intros nrb ls E; cbn [curve_rec m_curve_rec] in *; [injection E as <-; reflexivity|].
  destruct (n_dim nrb <? 1); [injection E as <-; reflexivity|]. destruct (1 <? n_dim nrb).
  - destruct (boundaries junk nrb) as [bs|]; [|discriminate]. cbn [bind lift] in *.
    destruct (mapM (curve_rec junk junk2 junk3 junkS f (bk_res1 bk)) bs) as [lss|] eqn:EM; [|discriminate]. cbn [bind] in E. injection E as <-.
    assert (F : forall acc, fold_left (fun r b => andthen r (m_curve_rec junk junk2 junk3 junkS bk f b kw)) bs (acc, None) = ((acc ++ map (fun l => Line3d [l] o) (concat lss))%list, None)).
    { revert lss EM. induction bs as [|b bs IHb]; intros lss EM acc; cbn [mapM] in EM.
      - injection EM as <-. cbn. rewrite app_nil_r. reflexivity.
      - destruct (curve_rec junk junk2 junk3 junkS f (bk_res1 bk) b) as [l|] eqn:El; [|discriminate]. cbn [bind] in EM.
        destruct (mapM (curve_rec junk junk2 junk3 junkS f (bk_res1 bk)) bs) as [r|] eqn:Er; [|discriminate]. cbn [bind] in EM. injection EM as <-.
        cbn [fold_left]. rewrite (IH b l El). cbn [andthen fst snd]. rewrite (IHb r eq_refl). cbn [concat]. rewrite map_app, app_assoc. reflexivity. }
    rewrite (F []). reflexivity.
  - destruct (sample junk junk2 junk3 junkS (bk_res1 bk) nrb) as [C|]; [|discriminate]. cbn [bind lift] in *. injection E as <-. rewrite Eo. cbn [lift]. apply emit_ok; auto.
Qed.
Lemma body_surf kw o : o = oset "representation" (VStr "surface") (ocolor yellow kw) ->
  completed kw [] ["color"; "representation"] o /\ o "representation" = Some (VStr "surface") /\ body_color kw o.
Proof.
  intros ->. split; [|split; [reflexivity|]].
  - intros k Hk. cbn [In] in Hk. rewrite oset_get, ocolor_get. cbn [lookup]. destruct (String.eqb_spec k "representation"); [exfalso; auto|]. destruct (String.eqb_spec k "color"); [exfalso; auto|]. destruct (kw k); auto.
  - unfold body_color. rewrite oset_get. cbn [String.eqb]. rewrite ocolor_get. reflexivity.
Qed.
Theorem options_surface nrb ss kw : bk_has bk "surf3d" = true -> 2 <= n_dim nrb -> p_surface junk junk2 junk3 junkS (bk_res2 bk) nrb = Ok ss ->
  exists o, m_surface (N:=N) junk junk2 junk3 junkS bk nrb kw = ([Surf3d ss o], None) /\
    completed kw [] ["color"; "representation"] o /\ o "representation" = Some (VStr "surface") /\ body_color kw o.
Proof.
  intros B Hd E. unfold m_surface. replace (n_dim nrb <? 2) with false by (symmetry; apply Z.ltb_ge; auto). rewrite E. cbn [lift]. rewrite emit_ok by auto.
  eexists. split; [reflexivity|]. apply body_surf. reflexivity.
Qed.
Theorem options_plot nrb ls ss kw : bk_has bk "line3d" = true -> bk_has bk "surf3d" = true -> 1 <= n_dim nrb <= 3 ->
  (n_dim nrb = 1 -> wire_mode (chosen kw "mode" (VStr "tube"))) ->
  p_plot junk junk2 junk3 junkS (bk_res1 bk) (bk_res2 bk) nrb = Ok (ls, ss) ->
  exists o, m_plot (N:=N) junk junk2 junk3 junkS bk nrb kw = ((map (fun l => Line3d [l] o) ls ++ if n_dim nrb =? 1 then [] else [Surf3d ss o])%list, None) /\
    completed kw [] (if n_dim nrb =? 1 then "color" :: wire_keys else ["color"; "representation"]) o /\ body_color kw o.
Proof.
  intros B1 B2 Hd HM E. unfold p_plot, m_plot in *. destruct (Z.eqb_spec (n_dim nrb) 1) as [e|n1].
  - destruct (p_curve junk junk2 junk3 junkS (bk_res1 bk) nrb) as [l|] eqn:El; [|discriminate]. cbn [bind] in E. injection E as <- <-.
    destruct (options_curve nrb l kw B1 (HM e) El) as (o & E & K1 & _ & K2). exists o. rewrite app_nil_r. auto.
  - destruct (Z.eqb_spec (n_dim nrb) 2) as [e|n2].
    + destruct (p_surface junk junk2 junk3 junkS (bk_res2 bk) nrb) as [l|] eqn:El; [|discriminate]. cbn [bind] in E. injection E as <- <-.
      destruct (options_surface nrb l kw B2 ltac:(lia) El) as (o & E & K1 & _ & K2). exists o. auto.
    + replace (n_dim nrb =? 3) with true in * by (symmetry; apply Z.eqb_eq; lia). unfold p_volume, m_volume in *.
      replace (n_dim nrb <? 3) with false in * by (symmetry; apply Z.ltb_ge; lia).
      destruct (p_surface junk junk2 junk3 junkS (bk_res2 bk) nrb) as [l|] eqn:El; [|discriminate]. cbn [bind] in E. injection E as <- <-.
      destruct (options_surface nrb l kw B2 ltac:(lia) El) as (o & E & K1 & _ & K2). exists o. auto.
Qed.
Theorem options_cplot nrb kw : bk_has bk "points3d" = true -> bk_has bk "line3d" = true -> wire_mode (chosen kw "mode" (VStr "line")) ->
  exists o o', m_cplot (N:=N) bk nrb kw = ([Points3d (p_cpoint nrb) o; Line3d (p_cwire nrb) o'], None) /\
    completed kw [("color", VRgb 1 0 0); ("mode", VStr "sphere")] [] o /\ completed kw [("color", VRgb 0 0 1)] wire_keys o' /\ wire_style kw "line" o'.
Proof.
  intros B1 B2 H. destruct (options_cpoint nrb kw B1) as (o & E & K). destruct (options_cwire nrb kw B2 H) as (o' & E' & K'). exists o, o'.
  unfold m_cplot. rewrite E, E'. split; [reflexivity|]. auto.
Qed.
Theorem options_kplot nrb t ls kw : bk_has bk "points3d" = true -> bk_has bk "line3d" = true -> wire_mode (chosen kw "mode" (VStr "line")) ->
  p_kpoint junk junk2 junk3 junkS nrb = Ok t -> p_kwire junk junk2 junk3 junkS (bk_res1 bk) nrb None = Ok ls ->
  exists o o', m_kplot (N:=N) junk junk2 junk3 junkS bk nrb kw = ([Points3d t o; Line3d ls o'], None) /\
    completed kw [("color", VRgb 0 1 0); ("mode", VStr "cube")] [] o /\ completed kw [("color", VRgb 0 1 0)] wire_keys o' /\ wire_style kw "line" o'.
Proof.
  intros B1 B2 H E1 E2. destruct (options_kpoint nrb t kw B1 E1) as (o & E & K). destruct (options_kwire nrb None ls kw B2 H E2) as (o' & E' & K'). exists o, o'.
  unfold m_kplot. rewrite E, E'. split; [reflexivity|]. auto.
Qed.
(** ** Refusals *)
Theorem refused_mode nrb kw : ~ wire_mode (chosen kw "mode" (VStr "line")) ->
  m_cwire (N:=N) bk nrb kw = ([], Some (Err AssertionError)) /\
  (bk_has bk "points3d" = true -> m_cplot (N:=N) bk nrb kw = (fst (m_cpoint bk nrb kw), Some (Err AssertionError)) /\ fst (m_cpoint (N:=N) bk nrb kw) <> []).
Proof.
  intros H. assert (E : m_cwire (N:=N) bk nrb kw = ([], Some (Err AssertionError))).
  { unfold m_cwire. rewrite owire_refuses; [reflexivity|]. rewrite chosen_color. auto. }
  split; auto. intros B. unfold m_cplot. rewrite E. unfold m_cpoint. rewrite emit_ok by auto. cbn. split; [reflexivity|discriminate].
Qed.
Theorem cplot_mode nrb kw m : bk_has bk "points3d" = true -> bk_has bk "line3d" = true -> kw "mode" = Some m ->
  (exists o, In (Points3d (p_cpoint nrb) o) (fst (m_cplot (N:=N) bk nrb kw)) /\ o "mode" = Some m) /\
  (snd (m_cplot (N:=N) bk nrb kw) = None <-> wire_mode m).
Proof.
  intros B1 B2 E. destruct (options_cpoint nrb kw B1) as (o & Eo & K). assert (EC : chosen kw "mode" (VStr "line") = m) by (unfold chosen; rewrite E; auto).
  split.
  - exists o. split; [unfold m_cplot; rewrite Eo; cbn [andthen fst]; left; reflexivity|]. rewrite K by auto. rewrite E. reflexivity.
  - unfold m_cplot. rewrite Eo. cbn [andthen snd]. split.
    + intros H. assert (D : {wire_mode m} + {~ wire_mode m}).
      { unfold wire_mode. destruct m as [|s| |]; try (right; intros [X|X]; discriminate). destruct (string_dec s "line") as [->|]; [left; auto|]. destruct (string_dec s "tube") as [->|]; [left; auto|].
        right. intros [X|X]; congruence. }
      destruct D as [D|D]; auto. rewrite <- EC in D. rewrite (proj1 (refused_mode nrb kw D)) in H. discriminate.
    + intros H. rewrite <- EC in H. destruct (options_cwire nrb kw B2 H) as (o' & E' & _). rewrite E'. reflexivity.
Qed.

(** ** matplotlib *)
Lemma pops_get ks o k : pops ks o k = if existsb (String.eqb k) ks then None else o k.
Proof.
  revert o. induction ks as [|a ks IH]; intros o; cbn [pops fold_left existsb]; auto. unfold pops in IH. rewrite IH. unfold opop. destruct (existsb _ ks); [rewrite orb_true_r; auto|].
  rewrite orb_false_r. reflexivity.
Qed.
Ltac allkeys := match goal with H : In _ _ |- _ => cbn [In] in H; repeat (destruct H as [H|H]; [subst|]); try destruct H end.
Lemma mpl_points_clean o : o "tube_radius" = None -> o "tube_sides" = None -> absent mayavi_only (mpl_points_opts o).
Proof.
  intros H1 H2 k Hk. unfold mayavi_only in Hk. unfold mpl_points_opts. set (p := pops _ o).
  assert (E : forall k, opop "mode" p k = if existsb (String.eqb k) ["mode"; "name"; "representation"; "opacity"; "colormap"; "resolution"; "scale_factor"; "scale_mode"; "line_width"] then None else o k).
  { intros x. unfold opop, p. rewrite pops_get. cbn [existsb]. destruct (String.eqb x "mode"); auto. }
  destruct (match p "mode" with Some m => m | None => VStr "sphere" end) as [|s| |]; [rewrite E; allkeys; first [reflexivity | exact H1 | exact H2]| |rewrite E; allkeys; first [reflexivity | exact H1 | exact H2]|rewrite E; allkeys; first [reflexivity | exact H1 | exact H2]].
  destruct (String.eqb s "sphere"); [|destruct (String.eqb s "cube"); [|destruct (String.eqb s "cone")]]; rewrite ?oset_get, E; allkeys; first [reflexivity | exact H1 | exact H2].
Qed.
Lemma mpl_points_color o k : In k ["color"; "c"; "alpha"; "linewidths"] -> mpl_points_opts o k = o k.
Proof.
  intros Hk. unfold mpl_points_opts. set (p := pops _ o).
  assert (E : opop "mode" p k = o k).
  { unfold opop, p. rewrite pops_get. allkeys; reflexivity. }
  destruct (match p "mode" with Some m => m | None => VStr "sphere" end) as [|s| |]; auto.
  destruct (String.eqb s "sphere"); [|destruct (String.eqb s "cube"); [|destruct (String.eqb s "cone")]]; rewrite ?oset_get; auto; allkeys; auto.
Qed.
Lemma mpl_line_clean o : o "scale_factor" = None -> o "scale_mode" = None -> o "mode" = None -> absent mayavi_only (mpl_line_opts o).
Proof. intros H1 H2 H3 k Hk. unfold mayavi_only in Hk. unfold mpl_line_opts. rewrite pops_get. allkeys; first [reflexivity | exact H1 | exact H2 | exact H3]. Qed.
Lemma mpl_surf_get o k : ~ In k ["rstride"; "cstride"; "linewidth"; "cmap"; "shade"; "antialiased"] ->
  mpl_surf_opts o k = pops ["name"; "representation"; "opacity"; "colormap"; "resolution"; "scale_factor"; "scale_mode"; "tube_radius"; "tube_sides"; "line_width"] o k.
Proof.
  intros Hk. cbn [In] in Hk. unfold mpl_surf_opts. set (p := pops _ o). rewrite !oset_get.
  destruct (String.eqb_spec k "antialiased"); [exfalso; apply Hk; subst; auto 10|]. destruct (String.eqb_spec k "shade"); [exfalso; apply Hk; subst; auto 10|].
  set (q := odflt "linewidth" _ _). assert (E : q k = p k).
  { unfold q. rewrite odflt_get, !oset_get. destruct (String.eqb_spec k "cstride"); [exfalso; apply Hk; subst; auto 10|]. destruct (String.eqb_spec k "rstride"); [exfalso; apply Hk; subst; auto 10|]. destruct (String.eqb_spec k "linewidth"); [exfalso; apply Hk; subst; auto 10|]. destruct (p k); auto. }
  destruct (q "color"), (q "cmap"); rewrite ?oset_get; auto. destruct (String.eqb_spec k "cmap"); [exfalso; apply Hk; subst; auto 10|]. auto.
Qed.
Lemma mpl_surf_clean o : o "mode" = None -> absent mayavi_only (mpl_surf_opts o).
Proof.
  intros H1 k Hk. rewrite mpl_surf_get by (unfold mayavi_only in Hk; allkeys; cbn; intuition discriminate). unfold mayavi_only in Hk. rewrite pops_get. allkeys; first [reflexivity | exact H1].
Qed.
(** The colour map is the default exactly if there is neither a colour nor a colour map. *)
Lemma mpl_surf_color o : mpl_surf_opts o "color" = o "color" /\
  mpl_surf_opts o "cmap" = match o "color", o "cmap" with None, None => Some (VObj 2) | _, _ => o "cmap" end.
Proof.
  split; [rewrite mpl_surf_get by (cbn; intuition discriminate); rewrite pops_get; reflexivity|].
  unfold mpl_surf_opts. set (p := pops _ o). rewrite !oset_get. change (String.eqb "cmap" "antialiased") with false. change (String.eqb "cmap" "shade") with false. cbv iota. set (q := odflt "linewidth" _ _).
  assert (E1 : q "color" = o "color") by (unfold q; rewrite odflt_get, !oset_get; unfold p; rewrite pops_get; cbn; destruct (o "color"); auto).
  assert (E2 : q "cmap" = o "cmap") by (unfold q; rewrite odflt_get, !oset_get; unfold p; rewrite pops_get; cbn; destruct (o "cmap"); auto).
  rewrite E1, E2. destruct (o "color"), (o "cmap") eqn:E3; auto.
Qed.
End Options.

(** ** The backend *)
Theorem use_effect imp i b s s' r : set_backend imp i b s = (s', r) ->
  match r with
  | None => ps_backend s' i = Some (alias b) /\ known (alias b) = true /\ forall k, k <> i -> ps_backend s' k = ps_backend s k
  | Some _ => s' = s
  end.
Proof.
  unfold set_backend. destruct (known (alias b)); cbn [negb]; [|intros E; injection E as <- <-; reflexivity].
  destruct (ps_modules s (alias b)); [|destruct (imp (alias b))]; intros E; injection E as <- <-; auto;
    (split; [cbn [ps_backend]; unfold upd; rewrite Nat.eqb_refl; auto|split; auto]); intros k Hk; cbn [ps_backend]; unfold upd; destruct (Nat.eqb_spec k i); congruence.
Qed.
Theorem use_unknown imp i b s : ~ In b ["mpl"; "myv"; "nul"; "matplotlib"; "mayavi"; "null"; "none"] -> set_backend imp i b s = (s, Some (Err ValueError)).
Proof.
  intros H. unfold set_backend, alias. cbn [In] in H.
  destruct (String.eqb_spec b "matplotlib"); [exfalso; apply H; subst; auto 10|]. destruct (String.eqb_spec b "mayavi"); [exfalso; apply H; subst; auto 10|].
  destruct (String.eqb_spec b "null"); [exfalso; apply H; subst; auto 10|]. destruct (String.eqb_spec b "none"); [exfalso; apply H; subst; auto 10|].
  unfold known. destruct (String.eqb_spec b "mpl"); [exfalso; apply H; subst; auto 10|]. destruct (String.eqb_spec b "myv"); [exfalso; apply H; subst; auto 10|].
  destruct (String.eqb_spec b "nul"); [exfalso; apply H; subst; auto 10|]. reflexivity.
Qed.
Theorem get_default imp i s : ps_backend s i = None ->
  (ps_modules s "myv" = true \/ imp "myv" = Loaded -> exists s', get_backend imp i s = (s', None) /\ ps_backend s' i = Some "myv") /\
  (ps_modules s "myv" = false -> imp "myv" = NotFound -> ps_modules s "mpl" = true \/ imp "mpl" = Loaded ->
     exists s', get_backend imp i s = (s', None) /\ ps_backend s' i = Some "mpl").
Proof.
  intros E. unfold get_backend. rewrite E. change (set_backend imp i "mayavi" s) with
    (if ps_modules s "myv" then (mkPs (ps_modules s) (upd (ps_backend s) i (Some "myv")) (ps_imports s), None)
     else match imp "myv" with
       | Loaded => (mkPs (fun k => if String.eqb k "myv" then true else ps_modules s k) (upd (ps_backend s) i (Some "myv")) ("myv" :: ps_imports s), None)
       | NotFound => (s, Some ImportError) | Broken => (s, Some OtherError) end).
  split.
  - intros H. destruct (ps_modules s "myv").
    + eexists. split; [reflexivity|]. cbn [ps_backend]. unfold upd. rewrite Nat.eqb_refl. auto.
    + destruct H as [H|H]; [discriminate|]. rewrite H. eexists. split; [reflexivity|]. cbn [ps_backend]. unfold upd. rewrite Nat.eqb_refl. auto.
  - intros H1 H2 H. rewrite H1, H2. unfold set_backend. change (alias "matplotlib") with "mpl". cbn [known negb]. change (known "mpl") with true. cbn [negb].
    destruct (ps_modules s "mpl").
    + eexists. split; [reflexivity|]. cbn [ps_backend]. unfold upd. rewrite Nat.eqb_refl. auto.
    + destruct H as [H|H]; [discriminate|]. rewrite H. eexists. split; [reflexivity|]. cbn [ps_backend]. unfold upd. rewrite Nat.eqb_refl. auto.
Qed.
(** What holds of every state that a program can reach. *)
Definition ps_ok (s : pstate) : Prop :=
  NoDup (ps_imports s) /\ (forall n, ps_modules s n = true <-> In n (ps_imports s)) /\
  (forall i n, ps_backend s i = Some n -> known n = true /\ In n (ps_imports s)).
Lemma set_ok imp i b s : ps_ok s -> ps_ok (fst (set_backend imp i b s)).
Proof.
  intros (H1 & H2 & H3). unfold set_backend. destruct (known (alias b)) eqn:K; cbn [negb fst]; [|split; [auto|split; auto]].
  destruct (ps_modules s (alias b)) eqn:M; [|destruct (imp (alias b))]; cbn [fst]; try (split; [auto|split; auto]; fail).
  - split; [auto|]. split; [auto|]. cbn [ps_backend ps_imports]. intros k n. unfold upd. destruct (Nat.eqb k i); [|apply H3]. intros E. injection E as <-. split; auto. apply H2. auto.
  - split; [|split]; cbn [ps_imports ps_modules ps_backend].
    + constructor; auto. intros I. apply H2 in I. congruence.
    + intros n. cbn [In]. destruct (String.eqb_spec n (alias b)); [subst; split; auto|]. rewrite H2. split; auto. intros [X|X]; auto. congruence.
    + intros k n. unfold upd. destruct (Nat.eqb k i); [intros E; injection E as <-; split; cbn [In]; auto|]. intros E. destruct (H3 k n E). split; cbn [In]; auto.
Qed.
Lemma get_ok imp i s : ps_ok s -> ps_ok (fst (get_backend imp i s)).
Proof.
  intros H. unfold get_backend. destruct (ps_backend s i); auto. pose proof (set_ok imp i "mayavi" s H) as H1. destruct (set_backend imp i "mayavi" s) as [s' [[]|]]; auto. apply set_ok. exact H1.
Qed.
Theorem reach_ok l : ps_ok (prun l ps0).
Proof.
  unfold prun. assert (H0 : ps_ok ps0) by (split; [constructor|split; [intros n; cbn; intuition discriminate|discriminate]]). revert H0. generalize ps0. induction l as [|p l IH]; intros s H; cbn [fold_left]; auto.
  apply IH. unfold pstep. destruct p; [apply set_ok|apply get_ok]; auto.
Qed.
Lemma other_kept imp i b s k : k <> i -> ps_backend (fst (set_backend imp i b s)) k = ps_backend s k.
Proof. intros H. destruct (set_backend imp i b s) as [s' r] eqn:E. pose proof (use_effect _ _ _ _ _ _ E) as U. destruct r; [rewrite U; auto|apply U; auto]. Qed.
Theorem backend_kept l s i n : ps_backend s i = Some n -> (forall imp b, ~ In (Use imp i b) l) -> ps_backend (prun l s) i = Some n.
Proof.
  unfold prun. revert s. induction l as [|p l IH]; intros s E H; cbn [fold_left]; auto. apply IH; [|intros imp b I; apply (H imp b); right; auto].
  unfold pstep. destruct p as [imp k b|imp k].
  - rewrite other_kept; auto. intros ->. apply (H imp b). left. auto.
  - unfold get_backend. destruct (Nat.eq_dec i k) as [<-|D]; [rewrite E; auto|]. destruct (ps_backend s k); auto. pose proof (other_kept imp k "mayavi" s i D) as O.
    destruct (set_backend imp k "mayavi" s) as [s' [[]|]]; cbn [fst] in *; rewrite ?other_kept by auto; congruence.
Qed.

(** ** What matplotlib gets *)
Ltac key_ne k := repeat match goal with
  | |- context [String.eqb k ?c] => destruct (String.eqb_spec k c); [subst k; exfalso; cbn in *; tauto|]
  end.
Lemma mpl_points_marker : forall o : opts,
  (o "mode" = None \/ o "mode" = Some (VStr "sphere") -> mpl_points_opts o "marker" = Some (VStr "o")) /\
  (o "mode" = Some (VStr "cube") -> mpl_points_opts o "marker" = Some (VStr "s")) /\
  (o "mode" = Some (VStr "cone") -> mpl_points_opts o "marker" = Some (VStr "^")) /\
  forall k, ~ In k mayavi_only -> k <> "marker" -> mpl_points_opts o k = o k.
Proof.
  intros o. unfold mpl_points_opts, pops. cbn [fold_left].
  match goal with |- context [match ?e "mode" with None => _ | Some _ => _ end] => change (e "mode") with (o "mode") end.
  split; [intros [E|E]; rewrite E; reflexivity|]. split; [intros E; rewrite E; reflexivity|]. split; [intros E; rewrite E; reflexivity|].
  intros k K M. unfold mayavi_only in K.
  assert (P : opop "mode" (opop "line_width" (opop "scale_mode" (opop "scale_factor" (opop "resolution" (opop "colormap" (opop "opacity" (opop "representation" (opop "name" o)))))))) k = o k).
  { unfold opop. key_ne k. reflexivity. }
  assert (Q : forall v o', o' k = o k -> oset "marker" v o' k = o k).
  { intros v o' E. unfold oset. destruct (String.eqb_spec k "marker"); [contradiction|exact E]. }
  destruct (o "mode") as [[|m| |]|]; try exact P; [|apply Q; exact P].
  destruct (String.eqb m "sphere"); [apply Q; exact P|]. destruct (String.eqb m "cube"); [apply Q; exact P|].
  destruct (String.eqb m "cone"); [apply Q; exact P|exact P].
Qed.
Lemma mpl_line_kept : forall (o : opts) k, ~ In k mayavi_only -> mpl_line_opts o k = o k.
Proof. intros o k K. unfold mayavi_only in K. unfold mpl_line_opts, pops. cbn [fold_left]. unfold opop. key_ne k. reflexivity. Qed.
Lemma mpl_surf_kept : forall o : opts,
  (forall k, In k ["rstride"; "cstride"; "shade"; "antialiased"] -> mpl_surf_opts o k = Some (VObj 1)) /\
  mpl_surf_opts o "linewidth" = Some (chosen o "linewidth" (VObj 0)) /\
  forall k, ~ In k mayavi_only -> ~ In k ["rstride"; "cstride"; "shade"; "antialiased"; "linewidth"; "cmap"] -> mpl_surf_opts o k = o k.
Proof.
  intros o. split; [|split].
  - intros k K. cbn [In] in K. unfold mpl_surf_opts, pops, odflt, chosen, oset, opop. cbn [fold_left].
    cbn. destruct (o "linewidth"); cbn; destruct (o "color"), (o "cmap"); cbn;
    destruct K as [<-|[<-|[<-|[<-|[]]]]]; reflexivity.
  - unfold mpl_surf_opts, pops, odflt, chosen, oset, opop. cbn. destruct (o "linewidth") eqn:E; cbn; destruct (o "color"), (o "cmap"); cbn; rewrite ?E; reflexivity.
  - intros k K L. unfold mayavi_only in K. unfold mpl_surf_opts, pops, odflt. cbn [fold_left].
    assert (Q : forall c v o', o' k = o k -> In c ["rstride"; "cstride"; "shade"; "antialiased"; "linewidth"; "cmap"] -> oset c v o' k = o k).
    { intros c v o' E I. unfold oset. destruct (String.eqb_spec k c); [subst; contradiction|exact E]. }
    apply Q; [|cbn; tauto]. apply Q; [|cbn; tauto].
    match goal with |- context [oset "cstride" ?a (oset "rstride" ?b ?c)] => assert (P : oset "cstride" a (oset "rstride" b c) k = o k) end.
    { apply Q; [|cbn; tauto]. apply Q; [|cbn; tauto]. unfold opop. key_ne k. reflexivity. }
    revert P. match goal with |- context [oset "cstride" ?a ?c] => generalize (oset "cstride" a c) end. intros o1 P.
    destruct (o1 "linewidth"); repeat match goal with |- context [match ?e with None => _ | Some _ => _ end] => destruct e end; auto;
    repeat (apply Q; [|cbn; tauto]); exact P.
Qed.
(** ** Names of backends *)
Lemma use_names : forall imp i s b n,
  In (b, n) [("mpl", "mpl"); ("myv", "myv"); ("nul", "nul"); ("matplotlib", "mpl"); ("mayavi", "myv"); ("null", "nul"); ("none", "nul")] ->
  (ps_modules s n = true \/ imp n = Loaded -> exists s', set_backend imp i b s = (s', None) /\ ps_backend s' i = Some n /\ ps_modules s' n = true) /\
  (ps_modules s n = false -> imp n = NotFound -> set_backend imp i b s = (s, Some ImportError)) /\
  (ps_modules s n = false -> imp n = Broken -> set_backend imp i b s = (s, Some OtherError)).
Proof.
  intros imp i s b n H.
  assert (A : alias b = n /\ known n = true) by (cbn [In] in H; repeat (destruct H as [H|H]; [injection H as <- <-; split; reflexivity|]); destruct H).
  destruct A as [A K]. unfold set_backend. rewrite A, K. cbn [negb]. split; [|split].
  - intros H0. destruct (ps_modules s n) eqn:E.
    + eexists. split; [reflexivity|]. cbn. unfold upd. rewrite Nat.eqb_refl. auto.
    + destruct H0 as [H0|H0]; [discriminate|]. rewrite H0. eexists. split; [reflexivity|]. cbn. unfold upd. rewrite Nat.eqb_refl, String.eqb_refl. auto.
  - intros E1 E2. rewrite E1, E2. reflexivity.
  - intros E1 E2. rewrite E1, E2. reflexivity.
Qed.
Lemma get_fails : forall imp i s, ps_backend s i = None -> ps_modules s "myv" = false ->
  (imp "myv" = Broken -> get_backend imp i s = (s, Some OtherError)) /\
  (imp "myv" = NotFound -> ps_modules s "mpl" = false -> imp "mpl" = NotFound -> get_backend imp i s = (s, Some ImportError)).
Proof.
  intros imp i s B M. unfold get_backend. rewrite B. unfold set_backend. cbn. rewrite M. split.
  - intros E. rewrite E. reflexivity.
  - intros E M2 E2. rewrite E. rewrite M2, E2. reflexivity.
Qed.
