(** What plots show (igakit/plot.py with the backends plot_myv.py and plot_mpl.py).
    The specification is in SpecPlot.v: grids of points and their edges and faces, equally spaced
    parameters, breaks. *)
From Coq Require Import ZArith QArith Reals List Bool Lia Lra Sorted Permutation.
From Verif Require Import Num Loop ModelBspline ModelBSp ModelNurbs ModelCad ModelIo ModelPlot Spec SpecNurbs SpecIo SpecPlot ProofNet ProofCall
  ProofNurbs ProofGeom ProofGeom2 ExTac PropNurbs PropRefuted ProofPlot ProofPlot2 ProofPlot3 ProofPlot4 ProofPlot5 ProofPlot6 ProofPlot7.
Import ListNotations.
Local Open Scope R_scope.

(** ** C97: plot and curve show the object.
    A curve is one line through its points at res1 equally spaced parameters, a surface one array of
    its points at res2 x res2 parameters, a volume six such arrays, one for every side. *)
Theorem C97_plot_shows_the_object : forall junk junk2 junk3 junkS nrb res1 res2, wf_nurbs nrb -> (2 <= res1)%Z -> (2 <= res2)%Z ->
  (length (n_axes nrb) = 1%nat -> exists t, p_plot (N:=Rn) junk junk2 junk3 junkS res1 res2 nrb = Ok ([t], []) /\
    shows t [res1] nrb (fun l => spaced_at (spec_axes nrb) res1 (rev l))) /\
  (length (n_axes nrb) = 2%nat -> exists t, p_plot (N:=Rn) junk junk2 junk3 junkS res1 res2 nrb = Ok ([], [t]) /\
    shows t [res2; res2] nrb (fun l => spaced_at (spec_axes nrb) res2 (rev l))) /\
  (length (n_axes nrb) = 3%nat -> all_ends nrb -> exists ts, p_plot (N:=Rn) junk junk2 junk3 junkS res1 res2 nrb = Ok ([], ts) /\ length ts = 6%nat /\
    forall a s, (a < 3)%nat -> (s < 2)%nat -> shows (nth (2 * a + s) ts no_xyz) [res2; res2] nrb
      (fun l => lins a (side_end (nth a (spec_axes nrb) (spec_ax axis0)) (Z.of_nat s)) (spaced_at (lrem a (spec_axes nrb)) res2 (rev l)))).
Proof. exact plot_spec. Qed.
Print Assumptions C97_plot_shows_the_object.

(** [curve] of a surface draws its four edges; of a volume the four edges of each of the six sides. *)
Theorem C97_curve_shows_the_edges : forall junk junk2 junk3 junkS nrb n, wf_nurbs nrb -> all_ends nrb -> (2 <= n)%Z ->
  (length (n_axes nrb) = 2%nat -> exists ts, p_curve (N:=Rn) junk junk2 junk3 junkS n nrb = Ok ts /\ length ts = 4%nat /\
    forall a s, (a < 2)%nat -> (s < 2)%nat -> shows (nth (2 * a + s) ts no_xyz) [n] nrb
      (fun l => lins a (side_end (nth a (spec_axes nrb) (spec_ax axis0)) (Z.of_nat s)) (spaced_at (lrem a (spec_axes nrb)) n (rev l)))) /\
  (length (n_axes nrb) = 3%nat -> exists ts, p_curve (N:=Rn) junk junk2 junk3 junkS n nrb = Ok ts /\ length ts = 24%nat /\
    forall a s b r, (a < 3)%nat -> (s < 2)%nat -> (b < 2)%nat -> (r < 2)%nat -> shows (nth (4 * (2 * a + s) + (2 * b + r)) ts no_xyz) [n] nrb
      (fun l => let axs := lrem a (spec_axes nrb) in
                lins a (side_end (nth a (spec_axes nrb) (spec_ax axis0)) (Z.of_nat s)) (lins b (side_end (nth b axs (spec_ax axis0)) (Z.of_nat r)) (spaced_at (lrem b axs) n (rev l))))).
Proof. exact outline_spec. Qed.
Print Assumptions C97_curve_shows_the_edges.
(** surface shows nothing of points and curves, volume nothing of points, curves and surfaces; of a
    surface, surface shows what plot shows; of a volume both show what plot shows. *)
Theorem C97_other_dimensions : forall junk junk2 junk3 junkS nrb n1 n,
  ((length (n_axes nrb) <= 1)%nat -> p_surface (N:=Rn) junk junk2 junk3 junkS n nrb = Ok []) /\
  ((length (n_axes nrb) <= 2)%nat -> p_volume (N:=Rn) junk junk2 junk3 junkS n nrb = Ok []) /\
  (length (n_axes nrb) = 0%nat -> p_plot (N:=Rn) junk junk2 junk3 junkS n1 n nrb = Ok ([], [])) /\
  ((2 <= length (n_axes nrb) <= 3)%nat -> forall ts, p_plot (N:=Rn) junk junk2 junk3 junkS n1 n nrb = Ok ([], ts) -> p_surface (N:=Rn) junk junk2 junk3 junkS n nrb = Ok ts) /\
  (length (n_axes nrb) = 3%nat -> forall ts, p_plot (N:=Rn) junk junk2 junk3 junkS n1 n nrb = Ok ([], ts) -> p_volume (N:=Rn) junk junk2 junk3 junkS n nrb = Ok ts).
Proof. exact other_dimensions. Qed.
Print Assumptions C97_other_dimensions.

(** A volume with clamped and unclamped axes. *)
Definition exVol : nurbs Rn :=
  mkNurbs [mkAxis (N:=Rn) 4 7 exU; mkAxis (N:=Rn) 5 8 exV; mkAxis (N:=Rn) 4 7 exU] 4
    (fun idx c => IZR (1 + nth 0 idx 0 * 2 + nth 1 idx 0 * nth 1 idx 0 + nth 2 idx 0 + c)%Z).
Lemma exVol_wf : wf_nurbs exVol.
Proof.
  split; [simpl; lia|]. split; [|simpl; lia].
  constructor; [|constructor; [|constructor; [|constructor]]]; split; simpl; try (unfold a_deg; simpl; lia); [exact exU_wf|exact exV_wf|exact exU_wf].
Qed.
Lemma exU_cut u : u = 0 \/ u = 1 \/ u = 2 -> can_cut (spec_ax (mkAxis (N:=Rn) 4 7 exU)) u.
Proof.
  intros H. unfold can_cut. cbn [spec_ax x_n x_p x_U a_size a_len a_deg a_knots]. change (7 - 4 - 1)%Z with 2%Z. change (4 - 1 + 2 + 1)%Z with 6%Z.
  split; [apply exU_sep; tauto|]. unfold right_end. cbn [spec_ax x_n x_U a_size a_knots]. change (4 - 1 + 1)%Z with 4%Z.
  destruct H as [->|[->| ->]]; [left; unfold exU; arr_lra|left; unfold exU; arr_lra|]. right. right.
  change (2 <= multiplicity exU 0 6 2)%Z. replace (multiplicity exU 0 6 2) with 3%Z by (symmetry; multz). lia.
Qed.
Lemma exV_cut u : u = 0 \/ u = 2 \/ u = 3 -> can_cut (spec_ax (mkAxis (N:=Rn) 5 8 exV)) u.
Proof.
  intros H. unfold can_cut. cbn [spec_ax x_n x_p x_U a_size a_len a_deg a_knots]. change (8 - 5 - 1)%Z with 2%Z. change (5 - 1 + 2 + 1)%Z with 7%Z.
  split; [apply exV_sep; tauto|]. unfold right_end. cbn [spec_ax x_n x_U a_size a_knots]. change (5 - 1 + 1)%Z with 5%Z.
  destruct H as [->|[->| ->]]; [left; unfold exV; arr_lra|left; unfold exV; arr_lra|]. right. left. change (multiplicity exV 0 7 3 = 1%Z). multz.
Qed.
Example C97_example : wf_nurbs exVol /\ length (n_axes exVol) = 3%nat /\ all_ends exVol /\ wf_nurbs exS /\ length (n_axes exS) = 2%nat /\ all_ends exS.
Proof.
  assert (HU : let A := spec_ax (mkAxis (N:=Rn) 4 7 exU) in can_cut A (left_end A) /\ can_cut A (right_end A)).
  { split; apply exU_cut; [left; change (exU 2%Z = 0)|right; right; change (exU 4%Z = 2)]; unfold exU; arr_lra. }
  assert (HV : let A := spec_ax (mkAxis (N:=Rn) 5 8 exV) in can_cut A (left_end A) /\ can_cut A (right_end A)).
  { split; apply exV_cut; [left; change (exV 2%Z = 0)|right; right; change (exV 5%Z = 3)]; unfold exV; arr_lra. }
  split; [exact exVol_wf|]. split; [reflexivity|]. split; [|split; [exact exS_wf|split; [reflexivity|]]];
    unfold all_ends; repeat (constructor; auto).
Qed.

(** ** C98: kpoint, kwire and ksurf show the points, lines and surfaces at the knots of the domain. *)
Theorem C98_kpoint : forall junk junk2 junk3 junkS nrb, wf_nurbs nrb ->
  exists t uss, p_kpoint (N:=Rn) junk junk2 junk3 junkS nrb = Ok t /\ Forall2 breaks_of (spec_axes nrb) uss /\
  shows t (rev (map (fun us => Z.of_nat (length us)) uss)) nrb (fun l => pick uss (rev l)).
Proof. exact kpoint_spec. Qed.
Print Assumptions C98_kpoint.

(** For axes given by nonnegative numbers, or all. *)
Theorem C98_kwire : forall junk junk2 junk3 junkS nrb n axes, wf_nurbs nrb -> (2 <= n)%Z ->
  (forall zs, axes = Some zs -> Forall (fun z => 0 <= z < Z.of_nat (length (n_axes nrb)))%Z zs) ->
  let chosen := fun a => (a < length (n_axes nrb))%nat /\ (forall zs, axes = Some zs -> In (Z.of_nat a) zs) in
  exists ts, p_kwire (N:=Rn) junk junk2 junk3 junkS n nrb axes = Ok ts /\
  (forall t, In t ts -> exists a us, chosen a /\ Forall2 break_of (lrem a (spec_axes nrb)) us /\ isoline t nrb n a us) /\
  (forall a us, chosen a -> Forall2 break_of (lrem a (spec_axes nrb)) us -> exists t, In t ts /\ isoline t nrb n a us).
Proof. exact kwire_spec. Qed.
Print Assumptions C98_kwire.

Theorem C98_ksurf : forall junk junk2 junk3 junkS nrb n axes, wf_nurbs nrb -> (2 <= n)%Z ->
  (forall zs, axes = Some zs -> Forall (fun z => exists a, names_axis (length (n_axes nrb)) z a) zs) ->
  let chosen := fun a => (a < length (n_axes nrb))%nat /\ (forall zs, axes = Some zs -> exists z, In z zs /\ names_axis (length (n_axes nrb)) z a) in
  (forall a u, chosen a -> let A := nth a (spec_axes nrb) (spec_ax axis0) in break_of A u -> can_cut A u) ->
  exists ts, p_ksurf (N:=Rn) junk junk2 junk3 junkS n nrb axes = Ok ts /\
  (forall t, In t ts -> exists a u, chosen a /\ break_of (nth a (spec_axes nrb) (spec_ax axis0)) u /\ isosurface t nrb n a u) /\
  (forall a u, chosen a -> break_of (nth a (spec_axes nrb) (spec_ax axis0)) u -> exists t, In t ts /\ isosurface t nrb n a u).
Proof. exact ksurf_spec. Qed.
Print Assumptions C98_ksurf.

(** The claim for kwire with an axis counted from the end is false.  The unit square, resolution 64:
    axis -2 is axis 0 of 2, but the first line drawn for -2 runs from (0,0) to (0,1) and on to (1/63,0),
    the first one drawn for 0 from (0,0) to (1/63,0) and (2/63,0). *)
Definition exUnit : nurbs Qn :=
  mkNurbs (N:=Qn) [mkAxis (N:=Qn) 2 4 (ql [0; 0; 1; 1]%Q); mkAxis (N:=Qn) 2 4 (ql [0; 0; 1; 1]%Q)] 4
    (fun idx c => if (c =? 0)%Z then inject_Z (nth 0 idx 0%Z) else if (c =? 1)%Z then inject_Z (nth 1 idx 0%Z) else if (c =? 3)%Z then 1%Q else 0%Q).
Definition start_of (r : res (list (xyz Qn))) : list (Q * Q * Q) :=
  match r with Ok (t :: _) => map (fun k => at3 t [k]) [0; 1; 2]%Z | _ => [] end.
Theorem C98_kwire_negative_axis_refuted : exists nrb : nurbs Qn, wfQ nrb = true /\ n_dim nrb = 2%Z /\ names_axis 2 (-2) 0 /\
  let draw := fun axes => p_kwire (N:=Qn) zj (fun _ _ => 0%Q) (fun _ _ _ => 0%Q) (fun _ => 0%Z) 64 nrb axes in
  start_of (draw (Some [-2]%Z)) = [(0, 0, 0); (0, 1, 0); (1 # 63, 0, 0)]%Q /\
  start_of (draw (Some [0]%Z)) = [(0, 0, 0); (1 # 63, 0, 0); (2 # 63, 0, 0)]%Q.
Proof. exists exUnit. split; [vm_compute; reflexivity|]. split; [reflexivity|]. split; [split; [lia|right; reflexivity]|]. cbv zeta. split; vm_compute; reflexivity. Qed.
Print Assumptions C98_kwire_negative_axis_refuted.

Lemma exU_breaks u : break_of (spec_ax (mkAxis (N:=Rn) 4 7 exU)) u <-> u = 0 \/ u = 1 \/ u = 2.
Proof.
  unfold break_of. change ((exists i, (2 <= i <= 4)%Z /\ exU i = u) <-> u = 0 \/ u = 1 \/ u = 2). split.
  - intros [i [Hi <-]]. assert (C : (i = 2 \/ i = 3 \/ i = 4)%Z) by lia. destruct C as [->|[->| ->]]; [left|right; left|right; right]; unfold exU; arr_lra.
  - intros [->|[->| ->]]; [exists 2%Z|exists 3%Z|exists 4%Z]; (split; [lia|unfold exU; arr_lra]).
Qed.
(** The surface exS: the lines along axis 0 through the breaks 0, 1, 2 and 3 of axis 1,
    and the curves at the breaks of axis 0. *)
Example C98_example : wf_nurbs exS /\ Forall (fun z => 0 <= z < Z.of_nat (length (n_axes exS)))%Z [0%Z] /\
  Forall (fun z => exists a, names_axis (length (n_axes exS)) z a) [(-2)%Z] /\
  (forall u, break_of (nth 0 (spec_axes exS) (spec_ax axis0)) u -> can_cut (nth 0 (spec_axes exS) (spec_ax axis0)) u) /\
  break_of (nth 0 (spec_axes exS) (spec_ax axis0)) 1.
Proof.
  split; [exact exS_wf|]. split; [repeat constructor; cbn; lia|]. split; [repeat constructor; exists 0%nat; split; cbn; lia|].
  change (nth 0 (spec_axes exS) (spec_ax axis0)) with (spec_ax (mkAxis (N:=Rn) 4 7 exU)). split.
  - intros u H. apply exU_cut. apply exU_breaks. exact H.
  - apply exU_breaks. auto.
Qed.

(** ** C99: what the backends draw of the arrays, in any arithmetic.
    mayavi (plot_myv): the lines are exactly the segments between neighbouring points. *)
Theorem C99_mayavi_lines : forall (N : Num) (ts : list (xyz N)), ts <> [] -> Forall proper_grid ts -> exists P L, myv_lines ts = Ok (P, L) /\
  (forall a b, In (a, b) L -> (0 <= a < Z.of_nat (length P))%Z /\ (0 <= b < Z.of_nat (length P))%Z) /\
  (forall p q, (segment P L p q \/ segment P L q p) <-> exists t, In t ts /\ joined t p q).
Proof. exact @myv_lines_spec. Qed.
Print Assumptions C99_mayavi_lines.
(** mayavi: the polygons are exactly the faces of the cells. *)
Theorem C99_mayavi_faces : forall (N : Num) (ts : list (xyz N)), ts <> [] -> Forall proper_grid ts -> exists P L, myv_polys ts = Ok (P, L) /\
  (forall f, In f L -> exists t p q r s, In t ts /\ square t p q r s /\ corners P f [p; q; r; s]) /\
  (forall t p q r s, In t ts -> square t p q r s -> exists f ps, In f L /\ corners P f ps /\ Permutation [p; q; r; s] ps).
Proof. exact @myv_polys_spec. Qed.
Print Assumptions C99_mayavi_faces.
(** mayavi: coordinate arrays of unequal shapes are refused. *)
Theorem C99_mayavi_rejects : forall (N : Num) (ts : list (xyz N)) x y z, In (x, y, z) ts -> (nd_shape x <> nd_shape y \/ nd_shape y <> nd_shape z) ->
  myv_lines ts = Raise AssertionError /\ myv_polys ts = Raise AssertionError.
Proof. exact @myv_rejects. Qed.
Print Assumptions C99_mayavi_rejects.
Example C99_rejects_example : exists x y z : nd Rn, nd_shape x <> nd_shape y /\ nd_shape y = nd_shape z.
Proof. exists (mkNd [2%Z; 3%Z] (fun _ => 0)), (mkNd [3%Z; 2%Z] (fun _ => 0)), (mkNd [3%Z; 2%Z] (fun _ => 1)). split; [discriminate|reflexivity]. Qed.
(** matplotlib (plot_mpl). *)
Theorem C99_matplotlib_lines : forall (N : Num) (ts : list (xyz N)) p q, Forall (fun t => (1 <= length (shape3 t) <= 3)%nat) ts ->
  (drawn (mpl_lines ts) p q \/ drawn (mpl_lines ts) q p <-> exists t, In t ts /\ joined t p q).
Proof. exact @mpl_lines_spec. Qed.
Print Assumptions C99_matplotlib_lines.
Theorem C99_matplotlib_faces : forall (N : Num) (ts : list (xyz N)), Forall (fun t => length (shape3 t) = 2%nat /\ Forall (fun s => 2 <= s)%Z (shape3 t)) ts ->
  (forall f, In f (mpl_surfs ts) -> exists t p q r s, In t ts /\ square t p q r s /\ f = [p; q; r; s]) /\
  (forall t p q r s, In t ts -> square t p q r s -> exists f, In f (mpl_surfs ts) /\ Permutation [p; q; r; s] f).
Proof. exact @mpl_surfs_spec. Qed.
Print Assumptions C99_matplotlib_faces.
(** With both backends cwire draws exactly the segments between neighbouring control points. *)
Theorem C99_control_net : forall (N : Num) (nrb : nurbs N), (1 <= length (n_axes nrb) <= 3)%nat -> Forall (fun A => 2 <= a_size A)%Z (n_axes nrb) ->
  (exists P L, myv_lines (p_cwire nrb) = Ok (P, L) /\ forall p q, segment P L p q \/ segment P L q p <-> net_joined nrb p q) /\
  (forall p q, drawn (mpl_lines (p_cwire nrb)) p q \/ drawn (mpl_lines (p_cwire nrb)) q p <-> net_joined nrb p q).
Proof. exact @control_net. Qed.
Print Assumptions C99_control_net.
(** cpoint shows every control point, at its position in space. *)
Theorem C99_control_points : forall (N : Num) (nrb : nurbs N),
  holds_points (p_cpoint nrb) (rev (map a_size (n_axes nrb))) (fun l => net_point nrb (rev l)).
Proof. exact @cnet_holds. Qed.
Print Assumptions C99_control_points.
(** A control point of weight 2 stored as (2, 4, 0, 2) is shown at (1, 2, 0). *)
Example C99_control_points_example : let nrb := mkNurbs (N:=Qn) [mkAxis 2 4 (fun i => inject_Z (i / 2))] 4 (fun _ c => nth (Z.to_nat c) [2; 4; 0; 2]%Q 0%Q) in
  forall i, net_point nrb [i] = (1, 2, 0)%Q.
Proof. intros nrb i. vm_compute. reflexivity. Qed.
(** A grid of 2 x 3 x 2 points, and the control net of the volume above. *)
Definition exGrid : xyz Qn := let f := fun c => mkNd (N:=Qn) [2; 3; 2]%Z (fun l => inject_Z (nth c l 0%Z)) in (f 0%nat, f 1%nat, f 2%nat).
Example C99_example : proper_grid exGrid /\ joined exGrid (0, 1, 1)%Q (0, 2, 1)%Q /\ square exGrid (0, 1, 1)%Q (0, 2, 1)%Q (1, 2, 1)%Q (1, 1, 1)%Q /\
  (1 <= length (n_axes exVol) <= 3)%nat /\ Forall (fun A => 2 <= a_size A)%Z (n_axes exVol).
Proof.
  assert (I : forall a b c, (0 <= a < 2 -> 0 <= b < 3 -> 0 <= c < 2 -> in_shape (shape3 exGrid) [a; b; c])%Z) by (intros; repeat constructor; cbn; tauto).
  assert (A1 : forall b c d, adjacent [b; c; d] [b; c + 1; d]%Z) by (intros; left; exists [b], c, [d]; auto).
  assert (A2 : forall b c d, adjacent [b; c; d] [b + 1; c; d]%Z) by (intros; left; exists [], b, [c; d]; auto).
  assert (A3 : forall i j, adjacent i j -> adjacent j i) by (intros i j [H|H]; [right|left]; auto).
  split; [|split; [|split; [|split; [cbn; lia|repeat constructor; cbn; lia]]]].
  - split; [unfold exGrid; do 3 eexists; split; [reflexivity|split; reflexivity]|]. split; [cbn; lia|]. repeat constructor; cbn; lia.
  - exists [0; 1; 1]%Z, [0; 2; 1]%Z. repeat (split; [apply I; lia|]). split; [exact (A1 0 1 1)%Z|]. split; reflexivity.
  - exists [0; 1; 1]%Z, [0; 2; 1]%Z, [1; 2; 1]%Z, [1; 1; 1]%Z. repeat (split; [apply I; lia|]).
    split; [exact (A1 0 1 1)%Z|]. split; [exact (A2 0 2 1)%Z|]. split; [exact (A3 _ _ (A1 1 1 1)%Z)|]. split; [exact (A3 _ _ (A2 0 1 1)%Z)|].
    split; [discriminate|]. split; [discriminate|]. repeat split; reflexivity.
Qed.

(** ** C100: points and quiver accept one to three coordinates and put zeros for the missing ones. *)
Theorem C100_points : forall (N : Num) (P : nd N) sh d, nd_shape P = sh ++ [d] -> sh <> [] ->
  ((1 <= d <= 3)%Z -> exists t, p_points P = Ok t /\ holds_points t (rev sh) (fun l => padded d (fun c => nd_get P (rev l ++ [c])))) /\
  (~ (1 <= d <= 3)%Z -> p_points P = Raise AssertionError).
Proof. exact @points_spec. Qed.
Print Assumptions C100_points.
Theorem C100_one_point : forall (N : Num) (P : nd N) d, nd_shape P = [d] ->
  ((1 <= d <= 3)%Z -> exists t, p_points P = Ok t /\ holds_points t [1%Z] (fun l => padded d (fun c => nd_get P [c]))) /\
  (~ (1 <= d <= 3)%Z -> p_points P = Raise AssertionError).
Proof. exact @point_spec. Qed.
Print Assumptions C100_one_point.
Theorem C100_quiver : forall (N : Num) (P V : nd N), p_quiver P V = (let* t := p_points P in let* u := p_points V in Ok (t, u)).
Proof. exact @quiver_spec. Qed.
Print Assumptions C100_quiver.
Example C100_example : nd_shape (mkNd (N:=Qn) [5; 4; 2]%Z (fun l => inject_Z (nth 2 l 0%Z))) = [5; 4]%Z ++ [2]%Z /\ padded (N:=Qn) 2 (fun c => inject_Z (7 + c)) = (7, 8, 0)%Q.
Proof. split; reflexivity. Qed.
