(** Model of module IGA (knot vector generator, quadrature rules, basis tables) and of the
    NURBS methods that list spans, breaks and nodes.
    igakit/igalib.f90:2170-2535, igakit/igalib.pyf:455-512, igakit/nurbs.py:317-408 *)
From Coq Require Import ZArith List Bool.
From Verif Require Import Num Loop ModelBspline ModelBSp ModelNurbs.
Import ListNotations.
Local Open Scope Z_scope.

Section Iga.
Context {N : Num}.
Notation "x +! y" := (nadd N x y) (at level 50, left associativity).
Notation "x -! y" := (nsub N x y) (at level 50, left associativity).
Notation "x *! y" := (nmul N x y) (at level 40, left associativity).
Notation "x /! y" := (ndiv N x y) (at level 40, left associativity).
Notation "x <! y" := (nltb N x y) (at level 70).
Notation "'0!'" := (n0 N).
Notation "'1!'" := (n1 N).
(** Arbitrary initial contents of output arrays. *)
Variable junk : Z -> N.
Variable junk2 : Z -> Z -> N.
Variable junkZ : Z -> Z.

(** ** KnotVector *)
(** Interior knots: the doubly nested loop, state (U, k).  igakit/igalib.f90:2183-2189 *)
Definition KnotVector_inner (E p C : Z) (Ui dU : N) (U : Z -> N) : Z -> N :=
  fst (for_up 1 (E - 1)
    (fun i st => for_up 1 (p - C) (fun _ (st : (Z -> N) * Z) => let '(U, k) := st in
       (upd U k (Ui +! nofZ N i *! dU), k + 1)) st) (U, p + 1)).
(** End knots.  igakit/igalib.f90:2190-2193 *)
Definition KnotVector_ends (p m : Z) (Ui Uf : N) (U : Z -> N) : Z -> N :=
  for_up 0 p (fun k U => upd (upd U k Ui) (m - k) Uf) U.
(** Periodic continuation.  igakit/igalib.f90:2195-2199 *)
Definition KnotVector_wrap (p m C : Z) (Ui Uf : N) (U : Z -> N) : Z -> N :=
  let n := m - (p + 1) in
  for_up 0 C (fun k U =>
    let U := upd U (C - k) (Ui -! Uf +! U (n - k)) in
    upd U (m - C + k) (Uf -! Ui +! U (p + 1 + k))) U.
(** igakit/igalib.f90:2173-2201; the length and the checks: igakit/igalib.pyf:455-465 *)
Definition KnotVector (E p C : Z) (Ui Uf : N) (wrap : bool) : res (vec N) :=
  check (1 <=? E) ;;; check (1 <=? p) ;;; check ((0 <=? C) && (C <? p)) ;;;
  let m := 2 * (p + 1) + (E - 1) * (p - C) - 1 in
  let dU := (Uf -! Ui) /! nofZ N E in
  let U := KnotVector_inner E p C Ui dU junk in
  let U := KnotVector_ends p m Ui Uf U in
  Ok (mkVec (m + 1) (if wrap then KnotVector_wrap p m C Ui Uf U else U)).

(** ** Quadrature rules *)
(** A decimal literal with 36 digits after the point, and the sign of one.
    igakit/igalib.f90:2203-2334 *)
Definition dec (z : Z) : N := nofZ N z /! nofZ N 1000000000000000000000000000000000000.
Definition opp (x : N) : N := 0! -! x.
(** GaussLegendreRule: points and weights, 0-based lists of length q; the literals are the
    exact decimals of the source (the rounding to real(8) is not modelled).
    igakit/igalib.f90:2203-2334 *)
Definition GaussLegendreRule (q : Z) : list N * list N :=
  match q with
  | 1 =>
      let x0 := dec (0) in
      let w0 := dec (2000000000000000000000000000000000000) in
      ([x0], [w0])
  | 2 =>
      let x0 := dec (-577350269189625764509148780501957456) in
      let x1 := opp x0 in
      let w0 := dec (1000000000000000000000000000000000000) in
      let w1 := w0 in
      ([x0; x1], [w0; w1])
  | 3 =>
      let x0 := dec (-774596669241483377035853079956479922) in
      let x1 := dec (0) in
      let x2 := opp x0 in
      let w0 := dec (555555555555555555555555555555555556) in
      let w1 := dec (888888888888888888888888888888888889) in
      let w2 := w0 in
      ([x0; x1; x2], [w0; w1; w2])
  | 4 =>
      let x0 := dec (-861136311594052575223946488892809505) in
      let x1 := dec (-339981043584856264802665759103244687) in
      let x2 := opp x1 in
      let x3 := opp x0 in
      let w0 := dec (347854845137453857373063949221999407) in
      let w1 := dec (652145154862546142626936050778000593) in
      let w2 := w1 in
      let w3 := w0 in
      ([x0; x1; x2; x3], [w0; w1; w2; w3])
  | 5 =>
      let x0 := dec (-906179845938663992797626878299392965) in
      let x1 := dec (-538469310105683091036314420700208805) in
      let x2 := dec (0) in
      let x3 := opp x1 in
      let x4 := opp x0 in
      let w0 := dec (236926885056189087514264040719917363) in
      let w1 := dec (478628670499366468041291514835638193) in
      let w2 := dec (568888888888888888888888888888888889) in
      let w3 := w1 in
      let w4 := w0 in
      ([x0; x1; x2; x3; x4], [w0; w1; w2; w3; w4])
  | 6 =>
      let x0 := dec (-932469514203152027812301554493994609) in
      let x1 := dec (-661209386466264513661399595019905347) in
      let x2 := dec (-238619186083196908630501721680711935) in
      let x3 := opp x2 in
      let x4 := opp x1 in
      let x5 := opp x0 in
      let w0 := dec (171324492379170345040296142172732894) in
      let w1 := dec (360761573048138607569833513837716112) in
      let w2 := dec (467913934572691047389870343989550995) in
      let w3 := w2 in
      let w4 := w1 in
      let w5 := w0 in
      ([x0; x1; x2; x3; x4; x5], [w0; w1; w2; w3; w4; w5])
  | 7 =>
      let x0 := dec (-949107912342758524526189684047851262) in
      let x1 := dec (-741531185599394439863864773280788407) in
      let x2 := dec (-405845151377397166906606412076961463) in
      let x3 := dec (0) in
      let x4 := opp x2 in
      let x5 := opp x1 in
      let x6 := opp x0 in
      let w0 := dec (129484966168869693270611432679082018) in
      let w1 := dec (279705391489276667901467771423779582) in
      let w2 := dec (381830050505118944950369775488975134) in
      let w3 := dec (417959183673469387755102040816326531) in
      let w4 := w2 in
      let w5 := w1 in
      let w6 := w0 in
      ([x0; x1; x2; x3; x4; x5; x6], [w0; w1; w2; w3; w4; w5; w6])
  | 8 =>
      let x0 := dec (-960289856497536231683560868569472990) in
      let x1 := dec (-796666477413626739591553936475830437) in
      let x2 := dec (-525532409916328985817739049189246349) in
      let x3 := dec (-183434642495649804939476142360183981) in
      let x4 := opp x3 in
      let x5 := opp x2 in
      let x6 := opp x1 in
      let x7 := opp x0 in
      let w0 := dec (101228536290376259152531354309962190) in
      let w1 := dec (222381034453374470544355994426240884) in
      let w2 := dec (313706645877887287337962201986601313) in
      let w3 := dec (362683783378361982965150449277195612) in
      let w4 := w3 in
      let w5 := w2 in
      let w6 := w1 in
      let w7 := w0 in
      ([x0; x1; x2; x3; x4; x5; x6; x7], [w0; w1; w2; w3; w4; w5; w6; w7])
  | 9 =>
      let x0 := dec (-968160239507626089835576202903672870) in
      let x1 := dec (-836031107326635794299429788069734877) in
      let x2 := dec (-613371432700590397308702039341474185) in
      let x3 := dec (-324253423403808929038538014643336609) in
      let x4 := dec (0) in
      let x5 := opp x3 in
      let x6 := opp x2 in
      let x7 := opp x1 in
      let x8 := opp x0 in
      let w0 := dec (81274388361574411971892158110523651) in
      let w1 := dec (180648160694857404058472031242912810) in
      let w2 := dec (260610696402935462318742869418632850) in
      let w3 := dec (312347077040002840068630406584443666) in
      let w4 := dec (330239355001259763164525069286974049) in
      let w5 := w3 in
      let w6 := w2 in
      let w7 := w1 in
      let w8 := w0 in
      ([x0; x1; x2; x3; x4; x5; x6; x7; x8], [w0; w1; w2; w3; w4; w5; w6; w7; w8])
  | 10 =>
      let x0 := dec (-973906528517171720077964012084452053) in
      let x1 := dec (-865063366688984510732096688423493049) in
      let x2 := dec (-679409568299024406234327365114873576) in
      let x3 := dec (-433395394129247190799265943165784162) in
      let x4 := dec (-148874338981631210884826001129719985) in
      let x5 := opp x4 in
      let x6 := opp x3 in
      let x7 := opp x2 in
      let x8 := opp x1 in
      let x9 := opp x0 in
      let w0 := dec (66671344308688137593568809893331793) in
      let w1 := dec (149451349150580593145776339657697332) in
      let w2 := dec (219086362515982043995534934228163192) in
      let w3 := dec (269266719309996355091226921569469353) in
      let w4 := dec (295524224714752870173892994651338329) in
      let w5 := w4 in
      let w6 := w3 in
      let w7 := w2 in
      let w8 := w1 in
      let w9 := w0 in
      ([x0; x1; x2; x3; x4; x5; x6; x7; x8; x9], [w0; w1; w2; w3; w4; w5; w6; w7; w8; w9])
  | _ => (repeat 0! (Z.to_nat q), repeat 0! (Z.to_nat q))
  end.

(** GaussLobattoRule.  igakit/igalib.f90:2336-2464 *)
Definition GaussLobattoRule (q : Z) : list N * list N :=
  match q with
  | 2 =>
      let x0 := dec (-1000000000000000000000000000000000000) in
      let x1 := opp x0 in
      let w0 := dec (1000000000000000000000000000000000000) in
      let w1 := w0 in
      ([x0; x1], [w0; w1])
  | 3 =>
      let x0 := dec (-1000000000000000000000000000000000000) in
      let x1 := dec (0) in
      let x2 := opp x0 in
      let w0 := dec (333333333333333333333333333333333333) in
      let w1 := dec (1333333333333333333333333333333333333) in
      let w2 := w0 in
      ([x0; x1; x2], [w0; w1; w2])
  | 4 =>
      let x0 := dec (-1000000000000000000000000000000000000) in
      let x1 := dec (-447213595499957939281834733746255247) in
      let x2 := opp x1 in
      let x3 := opp x0 in
      let w0 := dec (166666666666666666666666666666666667) in
      let w1 := dec (833333333333333333333333333333333343) in
      let w2 := w1 in
      let w3 := w0 in
      ([x0; x1; x2; x3], [w0; w1; w2; w3])
  | 5 =>
      let x0 := dec (-1000000000000000000000000000000000000) in
      let x1 := dec (-654653670707977143798292456246858356) in
      let x2 := dec (0) in
      let x3 := opp x1 in
      let x4 := opp x0 in
      let w0 := dec (100000000000000000000000000000000000) in
      let w1 := dec (544444444444444444444444444444444444) in
      let w2 := dec (711111111111111111111111111111111111) in
      let w3 := w1 in
      let w4 := w0 in
      ([x0; x1; x2; x3; x4], [w0; w1; w2; w3; w4])
  | 6 =>
      let x0 := dec (-1000000000000000000000000000000000000) in
      let x1 := dec (-765055323929464692851002973959338150) in
      let x2 := dec (-285231516480645096314150994040879072) in
      let x3 := opp x2 in
      let x4 := opp x1 in
      let x5 := opp x0 in
      let w0 := dec (66666666666666666666666666666666667) in
      let w1 := dec (378474956297846980316612808212024652) in
      let w2 := dec (554858377035486353016720525121308681) in
      let w3 := w2 in
      let w4 := w1 in
      let w5 := w0 in
      ([x0; x1; x2; x3; x4; x5], [w0; w1; w2; w3; w4; w5])
  | 7 =>
      let x0 := dec (-1000000000000000000000000000000000000) in
      let x1 := dec (-830223896278566929872032213967465140) in
      let x2 := dec (-468848793470714213803771881908766329) in
      let x3 := dec (0) in
      let x4 := opp x2 in
      let x5 := opp x1 in
      let x6 := opp x0 in
      let w0 := dec (47619047619047619047619047619047619) in
      let w1 := dec (276826047361565948010700406290066293) in
      let w2 := dec (431745381209862623417871022281362278) in
      let w3 := dec (487619047619047619047619047619047619) in
      let w4 := w2 in
      let w5 := w1 in
      let w6 := w0 in
      ([x0; x1; x2; x3; x4; x5; x6], [w0; w1; w2; w3; w4; w5; w6])
  | 8 =>
      let x0 := dec (-1000000000000000000000000000000000000) in
      let x1 := dec (-871740148509606615337445761220663438) in
      let x2 := dec (-591700181433142302144510731397953190) in
      let x3 := dec (-209299217902478868768657260345351255) in
      let x4 := opp x3 in
      let x5 := opp x2 in
      let x6 := opp x1 in
      let x7 := opp x0 in
      let w0 := dec (35714285714285714285714285714285714) in
      let w1 := dec (210704227143506039382992065775756324) in
      let w2 := dec (341122692483504364764240677107748172) in
      let w3 := dec (412458794658703881567052971402209789) in
      let w4 := w3 in
      let w5 := w2 in
      let w6 := w1 in
      let w7 := w0 in
      ([x0; x1; x2; x3; x4; x5; x6; x7], [w0; w1; w2; w3; w4; w5; w6; w7])
  | 9 =>
      let x0 := dec (-1000000000000000000000000000000000000) in
      let x1 := dec (-899757995411460157312345244418337958) in
      let x2 := dec (-677186279510737753445885427091342451) in
      let x3 := dec (-363117463826178158710752068708659213) in
      let x4 := dec (0) in
      let x5 := opp x3 in
      let x6 := opp x2 in
      let x7 := opp x1 in
      let x8 := opp x0 in
      let w0 := dec (27777777777777777777777777777777778) in
      let w1 := dec (165495361560805525046339720029208306) in
      let w2 := dec (274538712500161735280705618579372726) in
      let w3 := dec (346428510973046345115131532139718288) in
      let w4 := dec (371519274376417233560090702947845805) in
      let w5 := w3 in
      let w6 := w2 in
      let w7 := w1 in
      let w8 := w0 in
      ([x0; x1; x2; x3; x4; x5; x6; x7; x8], [w0; w1; w2; w3; w4; w5; w6; w7; w8])
  | 10 =>
      let x0 := dec (-1000000000000000000000000000000000000) in
      let x1 := dec (-919533908166458813828932660822338134) in
      let x2 := dec (-738773865105505075003106174859830725) in
      let x3 := dec (-477924949810444495661175092731257998) in
      let x4 := dec (-165278957666387024626219765958173533) in
      let x5 := opp x4 in
      let x6 := opp x3 in
      let x7 := opp x2 in
      let x8 := opp x1 in
      let x9 := opp x0 in
      let w0 := dec (22222222222222222222222222222222222) in
      let w1 := dec (133305990851070111126227170755392898) in
      let w2 := dec (224889342063126452119457821731047843) in
      let w3 := dec (292042683679683757875582257374443892) in
      let w4 := dec (327539761183897456656510527916893145) in
      let w5 := w4 in
      let w6 := w3 in
      let w7 := w2 in
      let w8 := w1 in
      let w9 := w0 in
      ([x0; x1; x2; x3; x4; x5; x6; x7; x8; x9], [w0; w1; w2; w3; w4; w5; w6; w7; w8; w9])
  | _ => (repeat 0! (Z.to_nat q), repeat 0! (Z.to_nat q))
  end.

(** The checks on q.  igakit/igalib.pyf:467-477 *)
Definition py_GaussLegendreRule (q : Z) : res (list N * list N) :=
  check ((1 <=? q) && (q <=? 10)) ;;; Ok (GaussLegendreRule q).
Definition py_GaussLobattoRule (q : Z) : res (list N * list N) :=
  check ((2 <=? q) && (q <=? 10)) ;;; Ok (GaussLobattoRule q).

(** ** Basis tables *)
(** The span loop of BasisData (no bound check on ir); state (O, ir).
    igakit/igalib.f90:2482-2488 *)
Definition BasisData_spans (p m : Z) (U : Z -> N) : (Z -> Z) * Z :=
  for_up p (m - (p + 1)) (fun i (st : (Z -> Z) * Z) => let '(Of, ir) := st in
    if neps N <! nabs N (U i -! U (i + 1)) then (upd Of ir (i - p), ir + 1) else st) (junkZ, 1).
(** What BasisData returns: O(ir), J(ir), W(iq), X(iq,ir) and N(k,a,iq,ir), all indices as
    in the source (ir, iq from 1; k, a from 0).  igakit/igalib.f90:2466-2480 *)
Record basis_data := mkBD { bd_r : Z; bd_O : Z -> Z; bd_J : Z -> N; bd_W : Z -> N; bd_X : Z -> Z -> N;
  bd_N : Z -> Z -> Z -> Z -> N }.
(** igakit/igalib.f90:2466-2500; checks: igakit/igalib.pyf:479-491.  The entries of the output
    arrays are written once each; they are given as functions of the indices.  [None] for
    CountSpans (fuel) does not occur. *)
Definition BasisData (p m : Z) (U : Z -> N) (d q : Z) : res basis_data :=
  check (1 <=? p) ;;; check (2 * p + 1 <=? m) ;;; check ((0 <=? d) && (d <=? p)) ;;;
  check ((1 <=? q) && (q <=? 10)) ;;;
  match CountSpans (m - p - 1) p U with
  | None => Raise KernelError
  | Some r =>
      let Of := fst (BasisData_spans p m U) in
      let '(Xg, W) := GaussLegendreRule q in
      let J := fun ir => let i := Of ir + p in (U (i + 1) -! U i) /! nofZ N 2 in
      let X := fun iq ir => (nth (Z.to_nat (iq - 1)) Xg 0! +! 1!) *! J ir +! U (Of ir + p) in
      Ok (mkBD r Of J (fun iq => nth (Z.to_nat (iq - 1)) W 0!) X
            (fun k a iq ir => DersBasisFuns (Of ir + p) (X iq ir) p d U junk junk2 a k))
  end.

(** igakit/igalib.f90:2513-2533; checks: igakit/igalib.pyf:500-510.  Returns O and N(k,a,ir). *)
Definition BasisDataCol (p m : Z) (U : Z -> N) (r : Z) (X : Z -> N) (d : Z) : res ((Z -> Z) * (Z -> Z -> Z -> N)) :=
  check (1 <=? p) ;;; check (2 * p + 1 <=? m) ;;; check (1 <=? r) ;;; check ((0 <=? d) && (d <=? p)) ;;;
  Ok (fun ir => FindSpan (m - (p + 1)) p (X ir) U - p,
      fun k a ir => DersBasisFuns (FindSpan (m - (p + 1)) p (X ir) U) (X ir) p d U junk junk2 a k).

(** iga.Greville: the same loop as bsp.Greville, igakit/igalib.f90:2502-2511; checks and the length
    of the result: igakit/igalib.pyf:493-498 *)
Definition iga_Greville (p m : Z) (U : Z -> N) : res (vec N) :=
  check (1 <=? p) ;;; check (2 * p + 1 <=? m) ;;; Ok (mkVec (m - p) (bsp_Greville p m U junk)).

(** ** Methods of NURBS *)
(** [bsp.SpanIndex(p,U)] through f2py: the list of the r entries, r = CountSpans.
    igakit/igalib.pyf:67-73 *)
Definition py_SpanIndex (A : axis N) : res (list Z) :=
  let p := a_deg A in let m := a_len A - 1 in
  check (1 <=? p) ;;; check (2 * p + 1 <=? m) ;;;
  match CountSpans (m - p - 1) p (a_knots A) with
  | None => Raise KernelError
  | Some r => Ok (map (SpanIndex p m (a_knots A) r junkZ) (zseq (Z.to_nat r) 1))
  end.
(** [spans(axis)].  igakit/nurbs.py:317-328 *)
Definition spans (nrb : nurbs N) (ax : Z) : res (list Z) :=
  let* a := py_axis (n_dim nrb) ax in py_SpanIndex (get_axis nrb a).

(** [breaks(axis, mults=True)]: the distinct values and their multiplicities, the first and
    the last replaced by min(FindMult, p).  igakit/nurbs.py:330-349 *)
Definition break_mults (nrb : nurbs N) (ax : Z) : res (list N * list Z) :=
  let* a := py_axis (n_dim nrb) ax in
  let A := get_axis nrb a in
  let p := a_deg A in let m := a_len A - 1 in let n := m - p - 1 in
  let u := unique (inner_knots A) in
  let s := map (fun x => count_eq x (inner_knots A)) u in
  let fm := fun x k => match bsp_FindMult p m (a_knots A) x k with Some r => Ok r | None => Raise KernelError end in
  let* m0 := fm (hd 0! u) p in
  let s := lset 0 (Z.min m0 p) s in
  let* m1 := fm (last u 0!) n in
  let s := lset (length u - 1) (Z.min m1 p) s in
  Ok (u, s).

(** The nodes of lagrange and lobatto: p per span at relative positions x, plus the last
    break.  igakit/nurbs.py:376-385, 399-408 *)
Fixpoint nodes (p : Z) (x : Z -> N) (ub : list N) : list N :=
  match ub with
  | [] => []
  | [b] => [b]
  | u0 :: ((u1 :: _) as ub') =>
      u0 :: map (fun k => u0 +! (u1 -! u0) *! x k) (zseq (Z.to_nat (p - 1)) 1) ++ nodes p x ub'
  end.
(** [lagrange(axis)]; numpy.linspace(-1,1,p+1)[k] is -1 + k*(2/p).  igakit/nurbs.py:365-385 *)
Definition lagrange (nrb : nurbs N) (ax : Z) : res (list N) :=
  let* a := py_axis (n_dim nrb) ax in
  let p := a_deg (get_axis nrb a) in
  let* ub := breaks nrb ax in
  if p <? 2 then Ok ub
  else Ok (nodes p (fun k => ((opp 1! +! nofZ N k *! (nofZ N 2 /! nofZ N p)) +! 1!) /! nofZ N 2) ub).
(** [lobatto(axis)].  igakit/nurbs.py:387-408 *)
Definition lobatto (nrb : nurbs N) (ax : Z) : res (list N) :=
  let* a := py_axis (n_dim nrb) ax in
  let p := a_deg (get_axis nrb a) in
  let* ub := breaks nrb ax in
  if p <? 2 then Ok ub
  else
    let* r := py_GaussLobattoRule (p + 1) in
    Ok (nodes p (fun k => (nth (Z.to_nat k) (fst r) 0! +! 1!) /! nofZ N 2) ub).

End Iga.
