(** Property theorems about Cascade::getPoleZeros (Cascade.cpp:78-91), C69. *)
From Coq Require Import ZArith List Bool Reals Lra.
From Coquelicot Require Import Coquelicot.
From Verif Require Import Num Outcome Types Biquad State Cascade PoleFilter History Exact SigSpec PZSpec ChebSpec BandSpec ShelfSpec ChShelfSpec DesignSpec
  RefLibm Examples CasPZProofs BandFinal PZFinal.
Import ListNotations.
Local Open Scope R_scope.

(** one entry per active section, each the poles and zeros of that section, in order; never undefined *)
Theorem C69_sections : forall N : num, (forall r th, npolar N r th <> None) -> forall t k FO (f : filt N),
  (1 <= FO)%Z -> in_int (2 * FO) = true -> reachable_ok t k FO f ->
  match cas_getPoleZeros (pf_cas (fl_pf f)) with
  | Val ps => Z.of_nat (length ps) = filt_numStages f /\
      List.Forall2 (fun p b => bq_getPoleZeros b = Val [p]) ps (firstn (Z.to_nat (filt_numStages f)) (fl_stages f))
  | Exc e => exists b, In b (firstn (Z.to_nat (filt_numStages f)) (fl_stages f)) /\ bq_getPoleZeros b = Exc e
  | Undef => False
  end.
Proof. exact @c69_sections. Qed.
Print Assumptions C69_sections.
Example C69_sections_example : reachable_ok DF2 (Bw, LP) 4 ex_filt /\
  (match cas_getPoleZeros (pf_cas (fl_pf ex_filt)) with
   | Val l => map (fun p : pzpair D => map micro [re (cfst (poles p)); im (cfst (poles p)); re (csnd (poles p)); im (csnd (poles p))]) l | _ => [] end) =
  (match filt_getPoleZeros ex_filt with
   | Val l => map (fun p : pzpair D => map micro [re (csnd (poles p)); im (csnd (poles p)); re (cfst (poles p)); im (cfst (poles p))]) l | _ => [] end).
Proof. split; [exact ex_filt_reachable_ok|]. vm_compute. reflexivity. Qed.

(** the sections of a designed filter have, section by section, the poles and zeros that PoleFilterBase2::getPoleZeros reports *)
Theorem C69_designs : forall strict fam s t n FO req fc fw db (q : params (X strict)),
  is_shelf s = false -> (1 <= n)%nat -> (Z.of_nat n <= FO)%Z -> in_int (2 * Z.of_nat n) = true -> requested FO req n ->
  q_fc q = XR fc -> q_fw q = XR fw -> in_range s fc fw -> db_ok fam db -> (fam <> Bw -> q_db q = XR db) ->
  match filt_setupN (fam, s) FO req q (filt_init t (fam, s) FO) with
  | Ok fl _ => exists ps qs : list pzc,
      filt_getPoleZeros fl = Val (map xpz ps) /\ cas_getPoleZeros (pf_cas (fl_pf fl)) = Val (map xpz qs) /\
      List.Forall pz_ok qs /\
      List.Forall2 (fun p q : pzc => forall u : C, pz_den q u = pz_den p u /\ pz_num q u = pz_num p u) ps qs
  | Throw _ _ => s = BP \/ s = BS
  | UB => False
  end.
Proof. exact @c69. Qed.
Print Assumptions C69_designs.
(** order 3 at centre 1/4, width 1/6, ripple 1 dB: one first order section for low and high pass *)
Example C69_designs_example : (exists q : params (X false), q_fc q = XR (1 / 4) /\ q_fw q = XR (1 / 6) /\ q_gain q = XR 6 /\ q_db q = XR 1) /\
  (forall s, in_range s (1 / 4) (1 / 6)) /\ (forall fam, db_ok fam 1) /\ requested 4 (Some 3%Z) 3 /\ in_int (2 * Z.of_nat 3) = true.
Proof.
  split; [apply ex_band_ok|]. split; [exact ex_band_range|]. split; [intros []; cbn; lra || exact I|]. repeat split; (lra || discriminate).
Qed.

(** shelves: the same for every section that is not of first order (first order sections: C18) *)
Theorem C69_butterworth_shelves : forall s t n FO req fc fw G (q : params (X false)),
  is_shelf s = true -> (1 <= n)%nat -> (Z.of_nat n <= FO)%Z -> in_int (2 * Z.of_nat n) = true -> requested FO req n ->
  q_fc q = XR fc -> q_fw q = XR fw -> in_range s fc fw -> q_gain q = XR G ->
  let td := tan ((edge_hi fc fw - edge_lo fc fw) / 2) in
  ~ (s = BSh /\ Nat.odd n = true /\ (td ^ (2 * n) = Rpower 10 (G / 20) \/ td ^ (2 * n) = Rpower 10 (- G / 20))) ->
  exists fl ps used rest, filt_setupN (Bw, s) FO req q (filt_init t (Bw, s) FO) = Ok fl tt /\
    filt_getPoleZeros fl = Val (map xpz ps) /\ fl_stages fl = (used ++ rest)%list /\
    List.Forall2 (fun (p : pzc) (b : biquad (X false)) => m_a2 b <> XR 0 \/ m_b2 b <> XR 0 ->
      exists q, bq_getPoleZeros b = Val [xpz q] /\ pz_ok q /\ forall u : C, pz_den q u = pz_den p u /\ pz_num q u = pz_num p u) ps used.
Proof. exact c69_bw. Qed.
Print Assumptions C69_butterworth_shelves.
Theorem C69_chebyshev_shelves : forall strict fam s t n FO req fc fw G db (q : params (X strict)),
  fam = Ch1 \/ fam = Ch2 -> is_shelf s = true ->
  (1 <= n)%nat -> (Z.of_nat n <= FO)%Z -> in_int (2 * Z.of_nat n) = true -> requested FO req n ->
  q_fc q = XR fc -> q_fw q = XR fw -> in_range s fc fw -> 0 < db < Rabs G -> q_gain q = XR G -> q_db q = XR db ->
  let td := 1 / tan ((edge_hi fc fw - edge_lo fc fw) / 2) in
  ~ (s = BSh /\ Nat.odd n = true /\ (td = cs_real_pole n G db \/ td = cs_real_zero n G db)) ->
  exists fl ps used rest, filt_setupN (fam, s) FO req q (filt_init t (fam, s) FO) = Ok fl tt /\
    filt_getPoleZeros fl = Val (map xpz ps) /\ fl_stages fl = (used ++ rest)%list /\
    List.Forall2 (fun (p : pzc) (b : biquad (X strict)) => m_a2 b <> XR 0 \/ m_b2 b <> XR 0 ->
      exists q, bq_getPoleZeros b = Val [xpz q] /\ pz_ok q /\ forall u : C, pz_den q u = pz_den p u /\ pz_num q u = pz_num p u) ps used.
Proof. exact @c69_ch. Qed.
Print Assumptions C69_chebyshev_shelves.
(** order 4 at centre 1/4, width 1/6, gain 6 dB, ripple 1 dB *)
Example C69_shelves_example : (exists q : params (X false), q_fc q = XR (1 / 4) /\ q_fw q = XR (1 / 6) /\ q_gain q = XR 6 /\ q_db q = XR 1) /\
  (forall s, in_range s (1 / 4) (1 / 6)) /\ 0 < 1 < Rabs 6 /\ Nat.odd 4 <> true /\ requested 4 None 4.
Proof.
  split; [apply ex_band_ok|]. split; [exact ex_band_range|]. rewrite Rabs_right by lra. repeat split; (lra || discriminate).
Qed.
