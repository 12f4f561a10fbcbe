(** Proofs: filters that have not been set up. *)
From Coq Require Import ZArith List Bool Reals.
From Flocq Require Import IEEE754.BinarySingleNaN.
From Verif Require Import Num Outcome Types Biquad State Cascade Transforms Custom PoleFilter RBJ History Stream Float64 FloatSpec UnsetSpec FloatLemmas DblProofs RefLibm.
Import ListNotations.

Section Unset.
  Context {N : num}.
  Lemma steps_pf t k FO (os : list (op N)) (f : filt N) : List.Forall no_setup os -> steps k FO os (filt_init t k FO) = Some f -> fl_pf f = pf_init k FO.
  Proof.
    assert (G : forall os (g : filt N), List.Forall no_setup os -> steps k FO os g = Some f -> fl_pf f = fl_pf g).
    { clear os. induction os as [|o os I]; intros g HF E; [inversion E; reflexivity|]. inversion HF as [|? ? H1 H2]; subst. cbn [steps] in E.
      destruct o; cbn [no_setup] in H1; try contradiction; cbn [step] in E; apply I in E; try assumption; rewrite E; try reflexivity.
      unfold filt_filter. destruct (cs_filter (fl_cs g) x). reflexivity. }
    intros HF E. exact (G os _ HF E).
  Qed.
  Lemma c74 t k FO (os : list (op N)) (f : filt N) : List.Forall no_setup os -> steps k FO os (filt_init t k FO) = Some f ->
    filt_numStages f = 0%Z /\ (forall i, filt_index f i = Exc E_index) /\ filt_getPoleZeros f = Val [] /\
    (forall x, (forall r th, npolar N r th <> None) -> nltb N (nlit N 1 2) x = false -> nltb N x (nofZ N 0) = false -> filt_response f x = Val (ncdiv N (c_of (nofZ N 1)) (c_of (nofZ N 1)))).
  Proof.
    intros HF E. pose proof (steps_pf t k FO os f HF E) as P. unfold filt_numStages, filt_index, filt_getPoleZeros, filt_response. rewrite P.
    split; [reflexivity|]. split; [|split; [reflexivity|]].
    - intros i. unfold cas_index. cbn [pf_init pf_cas setCascadeStorage c_numStages]. destruct (i <? 0)%Z eqn:A; [reflexivity|]. apply Z.ltb_ge in A. rewrite (proj2 (Z.leb_le 0 i) A). reflexivity.
    - intros x HP H1 H2. unfold cas_response, ngtb. rewrite H1, H2. cbn [othrow_if obind]. destruct (npolar N _ _) eqn:Q1; [|elim (HP _ _ Q1)]. cbn [oor_ub obind].
      destruct (npolar N _ _) eqn:Q2 at 1; [|elim (HP _ _ Q2)]. cbn [oor_ub obind pf_init pf_cas setCascadeStorage c_numStages c_stages]. change (Z.to_nat 0) with 0%nat. destruct (repeat biquad0 _); reflexivity.
  Qed.
End Unset.
Section Pass.
  Variable m : libm.
  Notation FN := (F64 m).
  Lemma id0 : identity_coeffs (m := m) (biquad0 (N := FN)).
  Proof. split; [exact (proj1 (fofZ_val 1 ltac:(reflexivity)))|]. repeat split; exists false; vm_compute; reflexivity. Qed.
  Lemma c74_pass t k FO (xs : list f64) : List.Forall is_fin xs -> Forall2 f_same (snd (filt_run (N := FN) (filt_init t k FO) xs)) xs.
  Proof. intros H. rewrite filt_run_snd. apply (c09_alone m); [|exact H]. apply List.Forall_forall. intros b Ib. apply repeat_spec in Ib. subst b. exact id0. Qed.
  Lemma c74_rbj (xs : list f64) : List.Forall is_fin xs -> Forall2 f_same (snd (rbj_run (N := FN) rbj_init xs)) xs.
  Proof. intros H. rewrite rbj_run_cs. apply (c09_alone m [biquad0] DF1 1); [|exact H]. constructor; [exact id0|constructor]. Qed.
  Lemma c74_sos t n (xs : list f64) : List.Forall is_fin xs -> Forall2 f_same (snd (cs_run (N := FN) (sos_init t n) xs)) xs.
  Proof. intros H. unfold sos_init, cstages_init. apply (c09_alone m); [|exact H]. apply List.Forall_forall. intros b Ib. apply repeat_spec in Ib. subst b. exact id0. Qed.
End Pass.
Lemma ex_c74 : exists f : filt D, Forall no_setup [OpFilter (fofZ 3 : T D); OpFilter (fofZ 5 : T D); OpReset] /\
  steps (Bw, BP) 4 [OpFilter (fofZ 3 : T D); OpFilter (fofZ 5 : T D); OpReset] (filt_init DF2 (Bw, BP) 4) = Some f /\ length (fl_stages f) = 4%nat /\
  nltb D (nlit D 1 2) (fnorm 1 (-2)) = false /\ nltb D (fnorm 1 (-2)) (nofZ D 0) = false /\ Forall is_fin [fofZ 3; fofZ 5].
Proof.
  set (f1 := fst (filt_filter (filt_init DF2 (Bw, BP) 4) (fofZ 3 : T D))). set (f2 := fst (filt_filter f1 (fofZ 5 : T D))). exists (filt_reset f2).
  split; [repeat constructor|]. split; [reflexivity|]. split; [vm_compute; reflexivity|]. split; [vm_compute; reflexivity|]. split; [vm_compute; reflexivity|]. repeat constructor.
Qed.
