(** Proofs: Butterworth filters whose cutoff is so close to 0 or to the Nyquist frequency that a rounded pole reaches the unit circle. *)
From Coq Require Import ZArith List Bool Reals Lra Lia Floats.SpecFloat.
From Coquelicot Require Import Coquelicot.
From Flocq Require Import Core IEEE754.BinarySingleNaN.
From Verif Require Import Num Outcome Types Biquad Cascade Butterworth PoleFilter Exact Float64 RefLibm FloatSpec SigSpec DblSpec DblLemmas BwDblSpec BwDblFinal.
Import ListNotations.
Local Open Scope R_scope.

Definition tiny_q (hp : bool) : params D :=
  MkParams (N := D) (if hp then fsub (fnorm 1 (-1)) (fnorm 1 (-30)) else fnorm 1 (-30)) (flit 0 1) (flit 0 1) (flit 0 1).

Definition tiny_run (hp : bool) : option (spec_float * spec_float) :=
  match setupN (N := D) (Bw, if hp then HP else LP) 2 (Some 2%Z) (tiny_q hp) (pf_init (Bw, if hp then HP else LP) 2) with
  | Ok p _ => match cas_index (pf_cas p) 0 with Val b => Some (B2SF (m_a1 b : f64), B2SF (m_a2 b : f64)) | _ => None end
  | _ => None
  end.
Lemma tiny_eval hp : tiny_run hp = Some (S754_finite (negb hp) 9007199217471388 (-52), S754_finite false 9007199180201784 (-53)).
Proof. destruct hp; vm_compute; reflexivity. Qed.

Lemma sfR (x : f64) s mm e : B2SF x = S754_finite s mm e -> is_finite x = true /\ B2R x = SF2R radix2 (S754_finite s mm e).
Proof. destruct x as [?|?| |? ? ? ?]; cbn; try discriminate. intros E; injection E as -> -> ->. split; reflexivity. Qed.

Lemma circle_unstable z a1 a2 : z * z = 1 -> 1 + z * a1 + a2 = 0 -> ~ stable_poly a1 a2.
Proof.
  intros Z E S. assert (H : Cmod (RtoC z) < 1).
  { apply S. rewrite <- !RtoC_mult, <- !RtoC_plus. f_equal. rewrite Z. lra. }
  rewrite Cmod_R in H. apply Rabs_def2 in H. nra.
Qed.

Lemma tiny_fc hp : FloatSpec.is_fin (q_fc (tiny_q hp) : f64) /\ B2R (q_fc (tiny_q hp) : f64) = if hp then 1 / 2 - / 2 ^ 30 else / 2 ^ 30.
Proof.
  destruct hp.
  - assert (E : B2SF (q_fc (tiny_q true) : f64) = S754_finite false 9007199237963776 (-54)) by (vm_compute; reflexivity).
    apply sfR in E as [F E]. split; [exact F|]. rewrite E. unfold SF2R, F2R; cbn -[Rmult Rdiv pow]. lra.
  - assert (E : B2SF (q_fc (tiny_q false) : f64) = S754_finite false 4503599627370496 (-82)) by (vm_compute; reflexivity).
    apply sfR in E as [F E]. split; [exact F|]. rewrite E. unfold SF2R, F2R; cbn -[Rmult Rdiv pow]. lra.
Qed.

Lemma c67_refuted (hp : bool) : let k := (Bw, if hp then HP else LP) in let z := if hp then -1 else 1 in
  exists (q : params D) p b, FloatSpec.is_fin (q_fc q : f64) /\ B2R (q_fc q : f64) = (if hp then 1 / 2 - / 2 ^ 30 else / 2 ^ 30) /\
    setupN (N := D) k 2 (Some 2%Z) q (pf_init k 2) = Ok p tt /\ cas_index (pf_cas p) 0 = Val b /\
    FloatSpec.is_fin (m_a1 b : f64) /\ FloatSpec.is_fin (m_a2 b : f64) /\
    z * z + B2R (m_a1 b : f64) * z + B2R (m_a2 b : f64) = 0 /\ ~ stable_poly (B2R (m_a1 b : f64)) (B2R (m_a2 b : f64)).
Proof.
  intros k z. pose proof (tiny_eval hp) as T. unfold tiny_run in T. fold k in T.
  exists (tiny_q hp). destruct (setupN k 2 (Some 2%Z) (tiny_q hp) (pf_init k 2)) as [p []| |]; try discriminate T.
  destruct (cas_index (pf_cas p) 0) as [b| |] eqn:Eb; try discriminate T.
  exists p, b. destruct (tiny_fc hp) as [Ff Fe]. injection T as T1 T2.
  apply sfR in T1 as [F1 E1]. apply sfR in T2 as [F2 E2].
  assert (Zr : z * z + B2R (m_a1 b : f64) * z + B2R (m_a2 b : f64) = 0).
  { rewrite E1, E2. unfold z, SF2R, F2R; destruct hp; cbn -[Rmult Rdiv pow]; lra. }
  repeat split; try assumption. apply (circle_unstable z); unfold z in *; destruct hp; lra.
Qed.

Lemma c67_partial m (hp : bool) (q : params (F64 m)) n FO p : libm_design m -> FloatSpec.is_fin (q_fc q : f64) ->
  / 2 ^ 14 <= B2R (q_fc q : f64) <= 1 / 2 - / 2 ^ 14 -> (1 <= n)%nat -> (Z.of_nat n <= 2 ^ 15)%Z -> (Z.of_nat n <= FO)%Z ->
  let k := (Bw, if hp then HP else LP) in
  setupN (N := F64 m) k FO (Some (Z.of_nat n)) q (pf_init k FO) = Ok p tt ->
  forall i, (i < bw_sections n)%nat -> exists b, cas_index (pf_cas p) (Z.of_nat i) = Val b /\ stable_poly (B2R (m_a1 b : f64)) (B2R (m_a2 b : f64)).
Proof.
  intros Lm Ff Fr N1 N2 NF k E i Hi. destruct (c64 m hp q n FO Lm Ff Fr N1 N2 NF) as (p' & E' & _ & S).
  assert (p' = p) as -> by (unfold k in E; congruence).
  destruct (S i Hi) as (b & Eb & _ & _ & _ & _ & St & _). exists b. split; assumption.
Qed.
