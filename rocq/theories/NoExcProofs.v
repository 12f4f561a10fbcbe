(** Proofs about the library without exceptions. *)
From Coq Require Import ZArith List Bool Lia.
From Verif Require Import Num Outcome Types Biquad State Cascade Transforms Butterworth Chebyshev PoleFilter History Hoare Safe Public PublicLemmas CallSpec CallLemmas NoExc Float64 RefLibm Examples PublicDouble.
Import ListNotations.
Local Open Scope Z_scope.

Section NoExcP.
  Context {N : num}.
  Hypothesis polar_total : forall r th, npolar N r th <> None.

  Lemma nstep_p k FO o (f : filt N) :
    match nstep k FO o f with Runs f' => pstep k FO o f = Some f' | Aborted => pstep k FO o f <> None | Undefined => pstep k FO o f = None end.
  Proof.
    destruct o as [[r q|r sr q|x| |g]|s|l| |rows]; cbn [nstep pstep step]; try reflexivity.
    all: match goal with |- context [noexc ?x] => destruct x; cbn [noexc after]; congruence end.
  Qed.
  Lemma too_large t k FO l (f : filt N) : filt_ok t k FO f -> maxStagesOf (snd k) FO < Z.quot (l_numPoles l + 1) 2 -> nstep k FO (PLayout l) f = Aborted.
  Proof.
    intros ((H1 & _) & _) H. destruct H1 as (C1 & C2 & C3). cbn [nstep]. unfold filt_setLayout, on_pf, on_cas, zoom.
    destruct (rejected_layout N (pf_cas (fl_pf f)) l) as (c' & E & _); [lia|lia|]. rewrite E. reflexivity.
  Qed.
  Lemma nstep_ok t k FO o (f : filt N) : 1 <= FO -> in_int (2 * FO) = true -> npop_ok (maxStagesOf (snd k) FO) o -> filt_ok t k FO f ->
    match nstep k FO o f with Runs f' => pop_ok (maxStagesOf (snd k) FO) o /\ filt_ok t k FO f' | Aborted => True | Undefined => False end.
  Proof.
    intros HF HI Ho Hf.
    assert (D : pop_ok (maxStagesOf (snd k) FO) o \/ nstep k FO o f = Aborted).
    { destruct o as [o|s|l| |rows]; try (left; exact Ho). destruct (Z_lt_le_dec (maxStagesOf (snd k) FO) (Z.quot (l_numPoles l + 1) 2)) as [L|L].
      - right. apply (too_large t); assumption.
      - left. split; assumption. }
    destruct D as [D|D]; [|rewrite D; exact I]. destruct (pstep_ok polar_total t k FO o f HF HI D Hf) as (f' & E & Hf').
    pose proof (nstep_p k FO o f) as P. destruct (nstep k FO o f) as [g| |]; [|exact I|congruence].
    split; [exact D|]. replace g with f' by congruence. exact Hf'.
  Qed.
  Lemma nsteps_ok t k FO os : forall f : filt N, 1 <= FO -> in_int (2 * FO) = true -> Forall (npop_ok (maxStagesOf (snd k) FO)) os -> filt_ok t k FO f ->
    match nsteps k FO os f with Runs f' => Forall (pop_ok (maxStagesOf (snd k) FO)) os /\ psteps k FO os f = Some f' | Aborted => True | Undefined => False end.
  Proof.
    induction os as [|o os IH]; intros f HF HI Ho Hf; cbn [nsteps psteps]; [split; [constructor|reflexivity]|].
    inversion Ho; subst. pose proof (nstep_ok t k FO o f HF HI H1 Hf) as S. pose proof (nstep_p k FO o f) as P.
    destruct (nstep k FO o f) as [f'| |]; [|exact I|exact S]. destruct S as [S1 S2]. rewrite P. specialize (IH f' HF HI H2 S2).
    destruct (nsteps k FO os f'); [|exact I|exact IH]. destruct IH as [I1 I2]. split; [constructor; assumption|exact I2].
  Qed.
  Lemma noexc_safe t k FO : 1 <= FO -> in_int (2 * FO) = true ->
    forall os : list (pop N), Forall (npop_ok (maxStagesOf (snd k) FO)) os ->
    nsteps k FO os (filt_init t k FO) = Aborted \/
    exists f : filt N, nsteps k FO os (filt_init t k FO) = Runs f /\ psteps k FO os (filt_init t k FO) = Some f /\
      (forall x, filt_response f x <> Undef) /\ (forall i, filt_index f i <> Undef) /\ filt_getPoleZeros f <> Undef /\
      length (fl_stages f) = Z.to_nat (maxStagesOf (snd k) FO) /\ length (fl_states f) = Z.to_nat (maxStagesOf (snd k) FO) /\
      0 <= filt_numStages f <= maxStagesOf (snd k) FO.
  Proof.
    intros HF HI os Ho. pose proof (nsteps_ok t k FO os _ HF HI Ho (filt_init_ok t k FO HF)) as S.
    destruct (nsteps k FO os (filt_init t k FO)) as [f| |]; [|left; reflexivity|contradiction]. right. exists f. split; [reflexivity|]. destruct S as [S1 S2].
    split; [exact S2|]. destruct (public_safe polar_total t k FO HF HI os S1) as (f' & E & R). replace f with f' by congruence. exact R.
  Qed.
  (** aborts exactly at the first call that would throw *)
  Lemma noexc_abort k FO os : forall f : filt N, nsteps k FO os f = Aborted <->
    exists os1 o os2 f1, os = os1 ++ o :: os2 /\ nsteps k FO os1 f = Runs f1 /\ nstep k FO o f1 = Aborted.
  Proof.
    induction os as [|o os IH]; intros f; cbn [nsteps].
    - split; [discriminate|]. intros (os1 & o & os2 & f1 & E & _). destruct os1; discriminate.
    - split.
      + destruct (nstep k FO o f) as [f'| |] eqn:E; [|intros _|discriminate].
        * intros H. apply IH in H. destruct H as (os1 & o' & os2 & f1 & -> & A & B). exists (o :: os1), o', os2, f1. split; [reflexivity|]. split; [cbn [nsteps]; rewrite E; exact A|exact B].
        * exists [], o, os, f. split; [reflexivity|]. split; [reflexivity|exact E].
      + intros (os1 & o' & os2 & f1 & E & A & B). destruct os1 as [|o1 os1]; cbn [app] in E; injection E as -> ->; cbn [nsteps] in A.
        * injection A as ->. rewrite B. reflexivity.
        * destruct (nstep k FO o1 f) as [f'| |]; try discriminate. apply IH. exists os1, o', os2, f1. auto.
  Qed.
  Lemma runs_calm k FO r q os : forall f g : filt N, nsteps k FO (map PCall os) f = Runs g -> calm k FO r q os f /\ steps k FO os f = Some g.
  Proof.
    induction os as [|o os IH]; intros f g; cbn [map nsteps calm steps]; [intros [= ->]; split; [exact I|reflexivity]|].
    pose proof (nstep_p k FO (PCall o) f) as P. intros H. destruct (nstep k FO (PCall o) f) as [f'| |] eqn:E; try discriminate.
    cbn [pstep] in P. rewrite P. destruct (IH f' g H) as [I1 I2]. split; [|exact I2]. split; [|exact I1].
    destruct o as [r' q'|r' sr q'|x| |h]; cbn [nstep op_threw] in *; try exact I.
    all: match goal with |- context [threw ?x] => destruct x; try discriminate E; exact I end.
  Qed.
End NoExcP.
Lemma noexc_history (N : num) : (forall r th, npolar N r th <> None) -> forall t t' k FO os (f : filt N) r q,
  1 <= FO -> in_int (2 * FO) = true -> Forall op_ok os -> order_ok r -> 1 <= order_of FO r ->
  (is_shelf (snd k) = true -> exact_param (q_gain q)) -> (fst k <> Bw -> exact_param (q_db q)) ->
  nsteps k FO (map PCall os) (filt_init t k FO) = Runs f ->
  same_outcome (filt_setupN k FO r q f) (filt_setupN k FO r q (filt_init t' k FO)) /\
  forall sr q', norm_params (snd k) sr q' = q -> same_outcome (filt_setup k FO r sr q' f) (filt_setup k FO r sr q' (filt_init t' k FO)).
Proof.
  intros HP t t' k FO os f r q HF HI HO HR H1 PG PD E. destruct (runs_calm k FO r q os _ _ E) as [C S].
  exact (c24 N HP t t' k FO os f r q HF HI HO HR H1 PG PD S C).
Qed.

(** ** concrete runs *)
Definition is_runs {S} (r : running S) : bool := match r with Runs _ => true | _ => false end.
Definition is_aborted {S} (r : running S) : bool := match r with Aborted => true | _ => false end.
Lemma ex_noexc : is_runs (nsteps (Bw, LP) 4 ex_pops (filt_init DF2 (Bw, LP) 4)) = true /\
  is_aborted (nsteps (Bw, LP) 2 [PCall (OpSetupN None ex_params); PLayout ex_layout; PCall (OpFilter (d 1 1))] (filt_init DF2 (Bw, LP) 2)) = true /\
  is_aborted (nsteps (Ch1, LP) 4 [PCall (OpSetupN None neg_ripple); PCall (OpSetupN None neg_ripple)] (filt_init DF2 (Ch1, LP) 4)) = true.
Proof. vm_compute. auto. Qed.
Lemma ex_noexc_ok : Forall (npop_ok (maxStagesOf LP 2)) [PCall (OpSetupN None ex_params); PLayout ex_layout; PCall (OpFilter (d 1 1))].
Proof.
  destruct ex_layout_valid as [A B]. repeat constructor; try (rewrite ?A, ?B; vm_compute; congruence).
Qed.
Lemma ex_noexc_calls : is_runs (nsteps (Ch1, LP) 4 (map PCall [OpSetup (Some 2) (d 2 1) ex_params2; OpFilter (d 1 1)]) (filt_init DF2 (Ch1, LP) 4)) = true.
Proof. vm_compute. reflexivity. Qed.
