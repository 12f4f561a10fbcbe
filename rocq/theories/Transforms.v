(** /repo/iir/PoleFilter.cpp: s-plane to z-plane transforms.  Each constructor writes the
    [digital] layout (the state of the monad) from the [analog] one. *)
From Coq Require Import ZArith List Bool.
From Verif Require Import Num Outcome Types.
Import ListNotations.

Section Transforms.
  Context {N : num}.
  Notation C := (cpx (T N)).
  Local Open Scope num_scope.

  (** PoleFilter.cpp:64-65 (= 110-111, 145-146, 229-230) *)
  Definition check_fc {S} (fc : T N) : M S unit :=
    throw_if (negb (nltb N fc (nlit N 1 2))) E_cutoff_high ;;
    throw_if (nltb N fc #0) E_cutoff_neg.

  (** (1. + c) / (1. - c) *)
  Definition bilinear (c : C) : C := ncdiv N (c_addr c #1) (c_rsub #1 c).

  (** PoleFilter.cpp:47-57 *)
  Definition lp_transform (f : T N) (c : C) : C :=
    if c_eqb c c_inf then Cx #(-1) #0
    else bilinear (c_scale f c).

  (** PoleFilter.cpp:94-104 *)
  Definition hp_transform (f : T N) (c : C) : C :=
    if c_eqb c c_inf then Cx #1 #0
    else let c := c_scale f c in
         ncdiv N (c_opp (c_addr c #1)) (c_rsub #1 c).

  (** PoleFilter.cpp:72-86 = 118-132: pole/zero loop of the low and high pass transforms *)
  Definition simple_loop (tr : C -> C) (analog : layout N) : M (layout N) unit :=
    let numPoles := l_numPoles analog in
    let pairs := Z.quot numPoles 2 in
    mfor (zrange pairs) (fun i =>
      do pz <- lift (lay_getPair analog i);
      lay_addConj (tr (cfst (poles pz))) (tr (cfst (zeros pz)))) ;;
    if Z.odd numPoles then
      do pz <- lift (lay_getPair analog pairs);
      lay_add1 (tr (cfst (poles pz))) (tr (cfst (zeros pz)))
    else ret tt.

  (** PoleFilter.cpp:59-90 *)
  Definition LowPassTransform (fc : T N) (analog : layout N) : M (layout N) unit :=
    check_fc fc ;;
    modify lay_reset ;;
    let f := ntan N (npi N * fc) in
    simple_loop (lp_transform f) analog ;;
    modify (lay_setNormal (l_normalW analog) (l_normalGain analog)).

  (** PoleFilter.cpp:106-136 *)
  Definition HighPassTransform (fc : T N) (analog : layout N) : M (layout N) unit :=
    check_fc fc ;;
    modify lay_reset ;;
    let f := #1 / ntan N (npi N * fc) in
    simple_loop (hp_transform f) analog ;;
    modify (lay_setNormal (npi N - l_normalW analog) (l_normalGain analog)).

  (** PoleFilter.cpp:150-160 = 234-243: band edges with clamping *)
  Definition band_edges (fc fw : T N) : T N * T N :=
    let ww := #2 * npi N * fw in
    let wc2 := #2 * npi N * fc - (ww / #2) in
    let wc := wc2 + ww in
    let wc2 := if nltb N wc2 (nlit N 1 100000000) then nlit N 1 100000000 else wc2 in
    let wc := if ngtb wc (npi N - nlit N 1 100000000) then npi N - nlit N 1 100000000 else wc in
    (wc, wc2).

  (** PoleFilter.h:208-215: members of BandPassTransform *)
  Record bpp : Type := MkBpp {
    bp_wc : T N; bp_wc2 : T N; bp_a : T N; bp_b : T N;
    bp_a2 : T N; bp_b2 : T N; bp_ab : T N; bp_ab_2 : T N }.

  (** PoleFilter.cpp:150-168 *)
  Definition bp_params (fc fw : T N) : bpp :=
    let '(wc, wc2) := band_edges fc fw in
    let a := ncos N ((wc + wc2) * nlit N 1 2) / ncos N ((wc - wc2) * nlit N 1 2) in
    let b := #1 / ntan N ((wc - wc2) * nlit N 1 2) in
    let ab := a * b in
    MkBpp wc wc2 a b (a * a) (b * b) ab (#2 * ab).

  (** PoleFilter.cpp:195-220 *)
  Definition bp_transform (p : bpp) (c : C) : cpair N :=
    if c_eqb c c_inf then CPair (c_of #(-1)) (c_of #1)
    else
      let c := bilinear c in
      let a2 := bp_a2 p in let b := bp_b p in let b2 := bp_b2 p in let ab_2 := bp_ab_2 p in
      let v := c_of #0 in
      let v := addmul v (#4 * (b2 * (a2 - #1) + #1)) c in
      let v := c_addr v (#8 * (b2 * (a2 - #1) - #1)) in
      let v := ncmul N v c in
      let v := c_addr v (#4 * (b2 * (a2 - #1) + #1)) in
      let v := ncsqrt N v in
      let u := c_opp v in
      let u := addmul u ab_2 c in
      let u := c_addr u ab_2 in
      let v := addmul v ab_2 c in
      let v := c_addr v ab_2 in
      let d := c_of #0 in
      let d := c_addr (addmul d (#2 * (b - #1)) c) (#2 * (#1 + b)) in
      CPair (ncdiv N u d) (ncdiv N v d).

  (** PoleFilter.cpp:140-193 *)
  Definition BandPassTransform (fc fw : T N) (analog : layout N) : M (layout N) unit :=
    check_fc fc ;;
    modify lay_reset ;;
    let p := bp_params fc fw in
    let numPoles := l_numPoles analog in
    let pairs := Z.quot numPoles 2 in
    mfor (zrange pairs) (fun i =>
      do pz <- lift (lay_getPair analog i);
      let p1 := bp_transform p (cfst (poles pz)) in
      let z1 := bp_transform p (cfst (zeros pz)) in
      lay_addConj (cfst p1) (cfst z1) ;;
      lay_addConj (csnd p1) (csnd z1)) ;;
    (if Z.odd numPoles then
       do pz <- lift (lay_getPair analog pairs);
       let ps := bp_transform p (cfst (poles pz)) in
       do pz <- lift (lay_getPair analog pairs);
       let zs := bp_transform p (cfst (zeros pz)) in
       lay_add2 ps zs
     else ret tt) ;;
    let wn := l_normalW analog in
    modify (lay_setNormal
      (#2 * natan N (nsqrt N (ntan N ((bp_wc p + wn) * nlit N 1 2)
                              * ntan N ((bp_wc2 p + wn) * nlit N 1 2))))
      (l_normalGain analog)).

  (** PoleFilter.h:234-239: members of BandStopTransform *)
  Record bsp : Type := MkBsp {
    bs_wc : T N; bs_wc2 : T N; bs_a : T N; bs_b : T N; bs_a2 : T N; bs_b2 : T N }.

  (** PoleFilter.cpp:234-249 *)
  Definition bs_params (fc fw : T N) : bsp :=
    let '(wc, wc2) := band_edges fc fw in
    let a := ncos N ((wc + wc2) * nlit N 1 2) / ncos N ((wc - wc2) * nlit N 1 2) in
    let b := ntan N ((wc - wc2) * nlit N 1 2) in
    MkBsp wc wc2 a b (a * a) (b * b).

  (** PoleFilter.cpp:281-307 *)
  Definition bs_transform (p : bsp) (c : C) : cpair N :=
    let c := if c_eqb c c_inf then c_of #(-1) else bilinear c in
    let a := bs_a p in let b := bs_b p in let a2 := bs_a2 p in let b2 := bs_b2 p in
    let u := c_of #0 in
    let u := addmul u (#4 * (b2 + a2 - #1)) c in
    let u := c_addr u (#8 * (b2 - a2 + #1)) in
    let u := ncmul N u c in
    let u := c_addr u (#4 * (a2 + b2 - #1)) in
    let u := ncsqrt N u in
    let v := c_scale (- nlit N 1 2) u in
    let v := c_addr v a in
    let v := addmul v (- a) c in
    let u := c_scale (nlit N 1 2) u in
    let u := c_addr u a in
    let u := addmul u (- a) c in
    let d := c_of (b + #1) in
    let d := addmul d (b - #1) c in
    CPair (ncdiv N u d) (ncdiv N v d).

  (** PoleFilter.cpp:224-279 *)
  Definition BandStopTransform (fc fw : T N) (analog : layout N) : M (layout N) unit :=
    check_fc fc ;;
    modify lay_reset ;;
    let p := bs_params fc fw in
    let numPoles := l_numPoles analog in
    let pairs := Z.quot numPoles 2 in
    mfor (zrange pairs) (fun i =>
      do pz <- lift (lay_getPair analog i);
      let pp := bs_transform p (cfst (poles pz)) in
      let zz := bs_transform p (cfst (zeros pz)) in
      (* "trick to get the conjugate" *)
      let z2 := if c_eqb (csnd zz) (cfst zz) then c_conj (cfst zz) else csnd zz in
      lay_addConj (cfst pp) (cfst zz) ;;
      lay_addConj (csnd pp) z2) ;;
    (if Z.odd numPoles then
       do pz <- lift (lay_getPair analog pairs);
       let ps := bs_transform p (cfst (poles pz)) in
       do pz <- lift (lay_getPair analog pairs);
       let zs := bs_transform p (cfst (zeros pz)) in
       lay_add2 ps zs
     else ret tt) ;;
    if nltb N fc (nlit N 1 4)
    then modify (lay_setNormal (npi N) (l_normalGain analog))
    else modify (lay_setNormal #0 (l_normalGain analog)).
End Transforms.
