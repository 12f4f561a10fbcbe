(** Several filter objects in memory, with the raw pointers of the C++ classes.

    PoleFilter.v treats one filter whose pointers refer to its own arrays.  Here an object
    stores its arrays and pointers separately; a pointer is the identity of the object that
    owns the array (every pointer the library creates refers to an array of the same member:
    Cascade::m_stageArray to a CascadeStages::m_stages, m_analogProto.m_pair to an
    m_analogStorage, m_digitalProto.m_pair to an m_digitalStorage). *)
From Coq Require Import ZArith List Bool.
From Verif Require Import Num Outcome Types Biquad State Cascade Transforms Butterworth
  Chebyshev PoleFilter.
Import ListNotations.

Section World.
  Context {N : num}.
  Notation C := (cpx (T N)).

  (** A LayoutBase without the array: Layout.h:169-173 *)
  Record lhead : Type := MkHead {
    h_numPoles : Z; h_maxPoles : Z; h_ptr : nat; h_normalW : T N; h_normalGain : T N }.

  (** PoleFilter.h:117-142 with the members of its bases *)
  Record obj : Type := MkObj {
    o_topo : topo; o_kind : kind; o_FO : Z;        (* template arguments *)
    o_numStages : Z; o_maxStages : Z; o_stagePtr : nat;  (* Cascade.h:103-105 *)
    o_dig : lhead;                                 (* PoleFilter.h:85 *)
    o_anaNp : Z; o_anaGain : T N; o_anaDb : T N; o_ana : lhead;  (* PoleFilter.h:105 *)
    o_stages : list (biquad N);                    (* Cascade.h:176 *)
    o_states : list (st N);                        (* Cascade.h:177 *)
    o_anaStore : list (pzpair N);                  (* PoleFilter.h:140 *)
    o_digStore : list (pzpair N)                   (* PoleFilter.h:141 *)
  }.

  (** Objects ever created; [None] after destruction *)
  Definition world : Type := list (option obj).
  Definition live (w : world) (i : nat) : option obj :=
    match nth_error w i with Some (Some o) => Some o | _ => None end.
  Definition write (w : world) (i : nat) (o : obj) : world := upd w i (Some o).

  Definition head_of (l : layout N) (ptr : nat) : lhead :=
    MkHead (l_numPoles l) (l_maxPoles l) ptr (l_normalW l) (l_normalGain l).
  Definition lay_of (h : lhead) (arr : list (pzpair N)) : layout N :=
    MkLayout (h_numPoles h) (h_maxPoles h) arr (h_normalW h) (h_normalGain h).

  (** PoleFilter.h:121-128: the new object (identity i) points to its own arrays *)
  Definition obj_init (t : topo) (k : kind) (FO : Z) (i : nat) : obj :=
    let f := filt_init t k FO in
    let p := fl_pf f in
    MkObj t k FO (c_numStages (pf_cas p)) (c_maxStages (pf_cas p)) i
          (head_of (pf_dig p) i)
          (p_np (pf_ana p)) (p_gain (pf_ana p)) (p_db (pf_ana p)) (head_of (p_lay (pf_ana p)) i)
          (c_stages (pf_cas p)) (fl_states f) (l_pairs (p_lay (pf_ana p))) (l_pairs (pf_dig p)).
  Definition w_create (t : topo) (k : kind) (FO : Z) (w : world) : world :=
    w ++ [Some (obj_init t k FO (length w))].

  (** PoleFilter.h:130: the defaulted copy constructor copies every member, the pointers
      included *)
  Definition w_copy (src : nat) : M world unit := fun w =>
    match live w src with
    | Some o => Ok (w ++ [Some o]) tt
    | None => UB
    end.

  (** end of life (implicit destructor: nothing to run) *)
  Definition w_destroy (i : nat) : M world unit := fun w =>
    match live w i with Some _ => Ok (upd w i None) tt | None => UB end.

  (** Read the base class sub-objects of object i through its pointers.  Simplification: a
      dangling pointer counts as undefined behaviour for the whole operation, also when the
      operation would end before accessing an element. *)
  Definition load_cas (w : world) (o : obj) : option (cascade N) :=
    match live w (o_stagePtr o) with
    | Some t => Some (MkCascade (o_numStages o) (o_maxStages o) (o_stages t))
    | None => None
    end.
  Definition load_dig (w : world) (o : obj) : option (layout N) :=
    match live w (h_ptr (o_dig o)) with
    | Some t => Some (lay_of (o_dig o) (o_digStore t))
    | None => None
    end.
  Definition load_ana (w : world) (o : obj) : option (proto N) :=
    match live w (h_ptr (o_ana o)) with
    | Some t => Some (MkProto (o_anaNp o) (o_anaGain o) (o_anaDb o) (lay_of (o_ana o) (o_anaStore t)))
    | None => None
    end.
  Definition load_pf (w : world) (o : obj) : option (pf N) :=
    match load_cas w o, load_dig w o, load_ana w o with
    | Some c, Some d, Some a => Some (MkPf c d a)
    | _, _, _ => None
    end.

  (** Write them back: numbers into object i, array contents through the pointers. *)
  Definition set_head (p : pf N) (o : obj) : obj :=
    MkObj (o_topo o) (o_kind o) (o_FO o)
          (c_numStages (pf_cas p)) (c_maxStages (pf_cas p)) (o_stagePtr o)
          (head_of (pf_dig p) (h_ptr (o_dig o)))
          (p_np (pf_ana p)) (p_gain (pf_ana p)) (p_db (pf_ana p))
          (head_of (p_lay (pf_ana p)) (h_ptr (o_ana o)))
          (o_stages o) (o_states o) (o_anaStore o) (o_digStore o).
  Definition set_stages (l : list (biquad N)) (o : obj) : obj :=
    MkObj (o_topo o) (o_kind o) (o_FO o) (o_numStages o) (o_maxStages o) (o_stagePtr o) (o_dig o)
          (o_anaNp o) (o_anaGain o) (o_anaDb o) (o_ana o) l (o_states o) (o_anaStore o) (o_digStore o).
  Definition set_states (l : list (st N)) (o : obj) : obj :=
    MkObj (o_topo o) (o_kind o) (o_FO o) (o_numStages o) (o_maxStages o) (o_stagePtr o) (o_dig o)
          (o_anaNp o) (o_anaGain o) (o_anaDb o) (o_ana o) (o_stages o) l (o_anaStore o) (o_digStore o).
  Definition set_digStore (l : list (pzpair N)) (o : obj) : obj :=
    MkObj (o_topo o) (o_kind o) (o_FO o) (o_numStages o) (o_maxStages o) (o_stagePtr o) (o_dig o)
          (o_anaNp o) (o_anaGain o) (o_anaDb o) (o_ana o) (o_stages o) (o_states o) (o_anaStore o) l.
  Definition set_anaStore (l : list (pzpair N)) (o : obj) : obj :=
    MkObj (o_topo o) (o_kind o) (o_FO o) (o_numStages o) (o_maxStages o) (o_stagePtr o) (o_dig o)
          (o_anaNp o) (o_anaGain o) (o_anaDb o) (o_ana o) (o_stages o) (o_states o) l (o_digStore o).
  Definition at_obj (i : nat) (f : obj -> obj) (w : world) : world :=
    match live w i with Some o => write w i (f o) | None => w end.
  Definition store_pf (i : nat) (o : obj) (p : pf N) (w : world) : world :=
    at_obj (o_stagePtr o) (set_stages (c_stages (pf_cas p)))
    (at_obj (h_ptr (o_dig o)) (set_digStore (l_pairs (pf_dig p)))
    (at_obj (h_ptr (o_ana o)) (set_anaStore (l_pairs (p_lay (pf_ana p))))
    (at_obj i (set_head p) w))).

  Definition on_obj {A} (i : nat) (m : obj -> M (pf N) A) : M world A := fun w =>
    match live w i with
    | None => UB
    | Some o =>
        match load_pf w o with
        | None => UB
        | Some p =>
            match m o p with
            | Ok p' a => Ok (store_pf i o p' w) a
            | Throw e p' => Throw e (store_pf i o p' w)
            | UB => UB
            end
        end
    end.

  (** the setup overloads of the filter templates *)
  Definition w_setupN (i : nat) (reqOrder : option Z) (q : params N) : M world unit :=
    on_obj i (fun o => setupN (o_kind o) (o_FO o) reqOrder q).
  Definition w_setup (i : nat) (reqOrder : option Z) (sr : T N) (q : params N) : M world unit :=
    on_obj i (fun o => setup (o_kind o) (o_FO o) reqOrder sr q).

  (** Cascade.h:126-130: own member arrays *)
  Definition w_reset (i : nat) : M world unit := fun w =>
    match live w i with
    | Some o => Ok (write w i (set_states (map st_reset (o_states o)) o)) tt
    | None => UB
    end.

  (** Cascade.h:156-164: filter loops over the object's own m_stages and m_states, not over
      the array behind Cascade::m_stageArray *)
  Definition w_filter (i : nat) (x : T N) : M world (T N) := fun w =>
    match live w i with
    | Some o =>
        let '(c, y) := cs_filter (MkCStages (o_stages o) (o_states o)) x in
        Ok (write w i (set_states (cs_states c) o)) y
    | None => UB
    end.

  (** PoleFilter.h:132-137 operator= resets the target; other is not read *)
  Definition w_assign (i other : nat) : M world unit := w_reset i.

  (** Cascade.cpp:52-76 through m_stageArray *)
  Definition w_response (i : nat) (f : T N) (w : world) : oc C :=
    match live w i with
    | Some o => match load_cas w o with Some c => cas_response c f | None => Undef end
    | None => Undef
    end.
  (** Cascade.h:78-83 *)
  Definition w_index (i : nat) (k : Z) (w : world) : oc (biquad N) :=
    match live w i with
    | Some o => match load_cas w o with Some c => cas_index c k | None => Undef end
    | None => Undef
    end.
  (** PoleFilter.h:75-82 *)
  Definition w_getPoleZeros (i : nat) (w : world) : oc (list (pzpair N)) :=
    match live w i with
    | Some o => match load_dig w o with
                | Some d => getpairs d (zrange (Z.quot (l_numPoles d + 1) 2))
                | None => Undef
                end
    | None => Undef
    end.
End World.
Arguments obj : clear implicits.
Arguments world : clear implicits.
