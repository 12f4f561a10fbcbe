(** The user-facing pole filters: /repo/iir/PoleFilter.h:62-142, the setup functions of
    Butterworth.cpp:107-201, ChebyshevI.cpp:159-259, ChebyshevII.cpp:160-260, and the filter
    templates of Butterworth.h:146-616, ChebyshevI.h:154-709, ChebyshevII.h:158-726. *)
From Coq Require Import ZArith List Bool.
From Verif Require Import Num Outcome Types Biquad State Cascade Transforms Butterworth Chebyshev.
Import ListNotations.

(** namespaces Butterworth, ChebyshevI, ChebyshevII *)
Inductive family : Type := Bw | Ch1 | Ch2.
(** LowPass, HighPass, BandPass, BandStop, LowShelf, HighShelf, BandShelf *)
Inductive shape : Type := LP | HP | BP | BS | LSh | HSh | BSh.

Definition kind : Type := (family * shape)%type.

(** Is the AnalogPrototype class AnalogLowShelf?  Butterworth.h:87-133, ChebyshevI.h:88-141,
    ChebyshevII.h:90-145 *)
Definition is_shelf (s : shape) : bool :=
  match s with LSh | HSh | BSh => true | _ => false end.

(** Is there a width parameter and MaxDigitalPoles = FilterOrder*2?  Butterworth.h:258,328,543,
    ChebyshevI.h:293,374,620, ChebyshevII.h:302,384,635 *)
Definition is_band (s : shape) : bool :=
  match s with BP | BS | BSh => true | _ => false end.

(** The MaxDigitalPoles template argument (PoleFilter.h:113-116) *)
Definition maxDigital (s : shape) (FilterOrder : Z) : Z :=
  if is_band s then (FilterOrder * 2)%Z else FilterOrder.

(** MaxStages of the CascadeStages base (PoleFilter.h:118) *)
Definition maxStagesOf (s : shape) (FilterOrder : Z) : Z :=
  Z.quot (maxDigital s FilterOrder + 1) 2.

Section PoleFilter.
  Context {N : num}.
  Notation C := (cpx (T N)).
  Local Open Scope num_scope.

  (** The arguments of setup/setupN after the order; a filter without width, gain or
      ripple/stopband argument ignores that component. *)
  Record params : Type := MkParams { q_fc : T N; q_fw : T N; q_gain : T N; q_db : T N }.

  (** The base class sub-objects of one filter, with the arrays their pointers refer to *)
  Record pf : Type := MkPf {
    pf_cas : cascade N;       (* Cascade, PoleFilter.h:62 *)
    pf_dig : layout N;        (* m_digitalProto, PoleFilter.h:85 *)
    pf_ana : proto N          (* m_analogProto, PoleFilter.h:105 *)
  }.
  Definition on_cas {A} (m : M (cascade N) A) : M pf A :=
    zoom pf_cas (fun c f => MkPf c (pf_dig f) (pf_ana f)) m.
  Definition on_dig {A} (m : M (layout N) A) : M pf A :=
    zoom pf_dig (fun d f => MkPf (pf_cas f) d (pf_ana f)) m.
  Definition on_ana {A} (m : M (proto N) A) : M pf A :=
    zoom pf_ana (fun a f => MkPf (pf_cas f) (pf_dig f) a) m.

  (** the AnalogPrototype constructors *)
  Definition ana_init (k : kind) : proto N :=
    match fst k, is_shelf (snd k) with
    | Bw, false => bw_lp_init
    | Bw, true => bw_ls_init
    | Ch1, false => c1_lp_init
    | Ch1, true => c1_ls_init
    | Ch2, false => c2_lp_init
    | Ch2, true => c2_ls_init
    end.

  (** m_analogProto.design (...) as called by the setup functions *)
  Definition ana_design (k : kind) (order : Z) (q : params) : M (proto N) unit :=
    match fst k, is_shelf (snd k) with
    | Bw, false => bw_lp_design order
    | Bw, true => bw_ls_design order (q_gain q)
    | Ch1, false => c1_lp_design order (q_db q)
    | Ch1, true => c1_ls_design order (q_gain q) (q_db q)
    | Ch2, false => c2_lp_design order (q_db q)
    | Ch2, true => c2_ls_design order (q_gain q) (q_db q)
    end.

  (** the transform step of the setup functions; for BandShelf also the setNormal that
      follows it (Butterworth.cpp:192-198, ChebyshevI.cpp:251-256, ChebyshevII.cpp:252-257) *)
  Definition dig_transform (s : shape) (q : params) (analog : layout N) : M (layout N) unit :=
    match s with
    | LP | LSh => LowPassTransform (q_fc q) analog
    | HP | HSh => HighPassTransform (q_fc q) analog
    | BP => BandPassTransform (q_fc q) (q_fw q) analog
    | BS => BandStopTransform (q_fc q) (q_fw q) analog
    | BSh =>
        BandPassTransform (q_fc q) (q_fw q) analog ;;
        modify (lay_setNormal (if nltb N (q_fc q) (nlit N 1 4) then npi N else #0) #1)
    end.

  (** XxxBase::setup: Butterworth.cpp:107-201, ChebyshevI.cpp:159-259, ChebyshevII.cpp:160-260 *)
  Definition base_setup (k : kind) (order : Z) (q : params) : M pf unit :=
    on_ana (ana_design k order q) ;;
    do f <- get;
    on_dig (dig_transform (snd k) q (p_lay (pf_ana f))) ;;
    do f <- get;
    on_cas (setLayout (pf_dig f)).

  (** setupN, both overloads: Butterworth.h:179-194,235-249,298-318,368-388,440-460,512-532,
      590-615; ChebyshevI.h and ChebyshevII.h correspondingly.  [None] is the overload
      without reqOrder. *)
  Definition setupN (k : kind) (FilterOrder : Z) (reqOrder : option Z) (q : params) : M pf unit :=
    match reqOrder with
    | None => base_setup k FilterOrder q
    | Some o => throw_if (FilterOrder <? o)%Z E_order ;; base_setup k o q
    end.

  (** setup, both overloads: Butterworth.h:154-172,211-228,266-289,336-359,407-430,480-503,
      552-580; ChebyshevI.h and ChebyshevII.h correspondingly *)
  Definition norm_params (s : shape) (sampleRate : T N) (q : params) : params :=
    MkParams (q_fc q / sampleRate)
             (if is_band s then q_fw q / sampleRate else q_fw q)
             (q_gain q) (q_db q).
  Definition setup (k : kind) (FilterOrder : Z) (reqOrder : option Z) (sampleRate : T N) (q : params)
    : M pf unit :=
    match reqOrder with
    | None => base_setup k FilterOrder (norm_params (snd k) sampleRate q)
    | Some o => throw_if (FilterOrder <? o)%Z E_order ;;
                base_setup k o (norm_params (snd k) sampleRate q)
    end.

  (** PoleFilter.h:117-142: a filter object.  Its CascadeStages::m_stages is the array the
      Cascade points to, its Layout storages are the arrays of the two layouts (PoleFilter()
      121-128); World.v treats copies, where the pointers refer to another object. *)
  Record filt : Type := MkFilt { fl_pf : pf; fl_states : list (st N) }.
  Definition on_pf {A} (m : M pf A) : M filt A :=
    zoom fl_pf (fun p f => MkFilt p (fl_states f)) m.
  Definition fl_stages (f : filt) : list (biquad N) := c_stages (pf_cas (fl_pf f)).
  Definition fl_cs (f : filt) : cstages N := MkCStages (fl_stages f) (fl_states f).

  (** PoleFilter.h:121-128 PoleFilter() *)
  Definition pf_init (k : kind) (FilterOrder : Z) : pf :=
    let a := ana_init k in
    MkPf (setCascadeStorage (maxStagesOf (snd k) FilterOrder)
            (repeat biquad0 (Z.to_nat (maxStagesOf (snd k) FilterOrder))))
         (layout_of_storage (maxDigital (snd k) FilterOrder)
            (layout_storage (maxDigital (snd k) FilterOrder)))
         (p_set_lay (lay_setStorage (layout_of_storage FilterOrder (layout_storage FilterOrder))
                                    (p_lay a)) a).
  Definition filt_init (t : topo) (k : kind) (FilterOrder : Z) : filt :=
    MkFilt (pf_init k FilterOrder)
           (repeat (st_init t) (Z.to_nat (maxStagesOf (snd k) FilterOrder))).

  Definition filt_setupN k FilterOrder reqOrder q : M filt unit :=
    on_pf (setupN k FilterOrder reqOrder q).
  Definition filt_setup k FilterOrder reqOrder sr q : M filt unit :=
    on_pf (setup k FilterOrder reqOrder sr q).

  (** Cascade.h:126-130 through PoleFilter *)
  Definition filt_reset (f : filt) : filt := MkFilt (fl_pf f) (map st_reset (fl_states f)).

  (** Cascade.h:156-164 through PoleFilter *)
  Definition filt_filter (f : filt) (x : T N) : filt * T N :=
    let '(c, y) := cs_filter (fl_cs f) x in (MkFilt (fl_pf f) (cs_states c), y).
  Fixpoint filt_run (f : filt) (xs : list (T N)) : filt * list (T N) :=
    match xs with
    | [] => (f, [])
    | x :: xs' =>
        let '(f', y) := filt_filter f x in
        let '(f'', ys) := filt_run f' xs' in
        (f'', y :: ys)
    end.

  (** Cascade.cpp:52-76, Cascade.h:70-83 *)
  Definition filt_response (f : filt) (fr : T N) : oc C := cas_response (pf_cas (fl_pf f)) fr.
  Definition filt_numStages (f : filt) : Z := c_numStages (pf_cas (fl_pf f)).
  Definition filt_index (f : filt) (i : Z) : oc (biquad N) := cas_index (pf_cas (fl_pf f)) i.

  (** PoleFilter.h:75-82 PoleFilterBase2::getPoleZeros *)
  Fixpoint getpairs (d : layout N) (is : list Z) : oc (list (pzpair N)) :=
    match is with
    | [] => Val []
    | i :: is' => odo p <- lay_getPair d i; odo ps <- getpairs d is'; Val (p :: ps)
    end.
  Definition filt_getPoleZeros (f : filt) : oc (list (pzpair N)) :=
    let d := pf_dig (fl_pf f) in
    getpairs d (zrange (Z.quot (l_numPoles d + 1) 2)).

  (** PoleFilter.h:132-137 operator=: the argument is not read *)
  Definition filt_assign (f other : filt) : filt := filt_reset f.
End PoleFilter.
Arguments params : clear implicits.
Arguments pf : clear implicits.
Arguments filt : clear implicits.
