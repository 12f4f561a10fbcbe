(** /repo/iir/Types.h and /repo/iir/Layout.h *)
From Coq Require Import ZArith List Bool.
From Verif Require Import Num Outcome.
Import ListNotations.

Section Types.
  Context {N : num}.
  Notation C := (cpx (T N)).

  (** Types.h:47-48 ComplexPair : std::pair<complex_t, complex_t> *)
  Record cpair : Type := CPair { cfst : C; csnd : C }.

  (** Types.h:49 default constructor: both members value-initialised to 0 *)
  Definition cpair0 : cpair := CPair (c_of n0) (c_of n0).

  (** Types.h:63-66 isReal *)
  Definition cp_isReal (p : cpair) : bool :=
    neqb N (im (cfst p)) n0 && neqb N (im (csnd p)) n0.

  (** Types.h:51-55 ComplexPair (const complex_t& c1) *)
  Definition cpair_single (c1 : C) : oc cpair :=
    let p := CPair c1 (c_of n0) in
    odo _ <- othrow_if (negb (cp_isReal p)) E_single_not_real;
    Val p.

  (** Types.h:72-80 isMatchedPair *)
  Definition cp_isMatchedPair (p : cpair) : bool :=
    if nneqb (im (cfst p)) n0 then c_eqb (csnd p) (c_conj (cfst p))
    else neqb N (im (csnd p)) n0 && nneqb (re (csnd p)) n0 && nneqb (re (cfst p)) n0.

  (** Types.h:82-85 is_nan *)
  Definition cp_is_nan (p : cpair) : bool := c_is_nan (cfst p) || c_is_nan (csnd p).

  (** Types.h:92-95 PoleZeroPair *)
  Record pzpair : Type := PZ { poles : cpair; zeros : cpair }.

  (** Types.h:97 *)
  Definition pzpair0 : pzpair := PZ cpair0 cpair0.

  (** Types.h:100-103 PoleZeroPair (p, z) *)
  Definition pz_single (p z : C) : oc pzpair :=
    odo pp <- cpair_single p;
    odo zz <- cpair_single z;
    Val (PZ pp zz).

  (** Types.h:106-111 PoleZeroPair (p1, z1, p2, z2) *)
  Definition pz_pair (p1 z1 p2 z2 : C) : pzpair := PZ (CPair p1 p2) (CPair z1 z2).

  (** Types.h:113-116 isSinglePole *)
  Definition pz_isSinglePole (p : pzpair) : bool :=
    c_eqb_r (csnd (poles p)) n0 && c_eqb_r (csnd (zeros p)) n0.

  (** Layout.h:62-174 LayoutBase.  [l_pairs] is the array [m_pair] points to (the pointer
      itself is modelled in World.v). *)
  Record layout : Type := MkLayout {
    l_numPoles : Z;         (* Layout.h:169 *)
    l_maxPoles : Z;         (* Layout.h:170 *)
    l_pairs : list pzpair;  (* Layout.h:171 *)
    l_normalW : T N;        (* Layout.h:172 *)
    l_normalGain : T N      (* Layout.h:173 *)
  }.

  Definition l_set_pairs (ps : list pzpair) (l : layout) : layout :=
    MkLayout (l_numPoles l) (l_maxPoles l) ps (l_normalW l) (l_normalGain l).
  Definition l_set_numPoles (n : Z) (l : layout) : layout :=
    MkLayout n (l_maxPoles l) (l_pairs l) (l_normalW l) (l_normalGain l).

  (** Layout.h:65-70,172-173 LayoutBase(): null storage *)
  Definition layout0 : layout := MkLayout 0 0 [] n0 n1.

  (** Layout.h:181-192 Layout<MaxPoles>: array of (MaxPoles+1)/2 default pairs, and its
      conversion to LayoutBase (72-77) *)
  Definition layout_storage (maxPoles : Z) : list pzpair :=
    repeat pzpair0 (Z.to_nat (Z.quot (maxPoles + 1) 2)).
  Definition layout_of_storage (maxPoles : Z) (ps : list pzpair) : layout :=
    MkLayout 0 maxPoles ps n0 n1.

  (** Layout.h:79-84 setStorage: numbers and pointer, not the normalisation *)
  Definition lay_setStorage (other : layout) (l : layout) : layout :=
    MkLayout 0 (l_maxPoles other) (l_pairs other) (l_normalW l) (l_normalGain l).

  (** Layout.h:86-89 reset *)
  Definition lay_reset (l : layout) : layout := l_set_numPoles 0 l.

  (** m_pair[m_numPoles/2] = p; out of range is undefined behaviour *)
  Definition lay_write (p : pzpair) : M layout unit :=
    do l <- get;
    do ps <- or_ub (aset (l_pairs l) (Z.quot (l_numPoles l) 2) p);
    put (l_set_pairs ps l).

  (** Layout.h:101-111 add (pole, zero) *)
  Definition lay_add1 (pole zero : C) : M layout unit :=
    do l <- get;
    throw_if (Z.odd (l_numPoles l)) E_2nd_after_1st ;;
    throw_if (c_is_nan pole) E_pole_nan ;;
    throw_if (c_is_nan zero) E_zero_nan ;;
    do p <- lift (pz_single pole zero);
    lay_write p ;;
    modify (fun l => l_set_numPoles (l_numPoles l + 1) l).

  (** Layout.h:113-125 addPoleZeroConjugatePairs *)
  Definition lay_addConj (pole zero : C) : M layout unit :=
    do l <- get;
    throw_if (Z.odd (l_numPoles l)) E_2nd_after_1st ;;
    throw_if (c_is_nan pole) E_pole_nan ;;
    throw_if (c_is_nan zero) E_zero_nan ;;
    lay_write (pz_pair pole zero (c_conj pole) (c_conj zero)) ;;
    modify (fun l => l_set_numPoles (l_numPoles l + 2) l).

  (** Layout.h:127-138 add (ComplexPair poles, ComplexPair zeros) *)
  Definition lay_add2 (ps zs : cpair) : M layout unit :=
    do l <- get;
    throw_if (Z.odd (l_numPoles l)) E_2nd_after_1st ;;
    throw_if (negb (cp_isMatchedPair ps)) E_lay_poles_conj ;;
    throw_if (negb (cp_isMatchedPair zs)) E_lay_zeros_conj ;;
    lay_write (pz_pair (cfst ps) (cfst zs) (csnd ps) (csnd zs)) ;;
    modify (fun l => l_set_numPoles (l_numPoles l + 2) l).

  (** Layout.h:140-150 getPair, operator[] *)
  Definition lay_getPair (l : layout) (i : Z) : oc pzpair :=
    odo _ <- othrow_if ((i <? 0)%Z || (Z.quot (l_numPoles l + 1) 2 <=? i)%Z) E_pair_index;
    oor_ub (aget (l_pairs l) i).

  (** Layout.h:162-166 setNormal *)
  Definition lay_setNormal (w g : T N) (l : layout) : layout :=
    MkLayout (l_numPoles l) (l_maxPoles l) (l_pairs l) w g.
End Types.
Arguments cpair : clear implicits.
Arguments pzpair : clear implicits.
Arguments layout : clear implicits.
