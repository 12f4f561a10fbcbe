(** Lemmas for the binary64 properties. *)
From Coq Require Import ZArith List Bool Reals Lra Lia.
From Flocq Require Import Core.Raux Core.Defs Core.Generic_fmt Core.Round_NE Core.FLT Core.FIX IEEE754.BinarySingleNaN.
From Verif Require Import Num Outcome Types Biquad State Cascade PoleFilter RBJ History Safe Stream AnyLemmas LayoutProofs Spec Float64 Samples FloatSpec FloatProofs.
Import ListNotations.

Lemma cs_run_app {N : num} xs ys : forall c : cstages N, snd (cs_run c (xs ++ ys)) = snd (cs_run c xs) ++ snd (cs_run (fst (cs_run c xs)) ys).
Proof.
  induction xs as [|x xs IH]; intros c; [destruct c; reflexivity|]. cbn [app cs_run]. destruct (cs_filter c x) as [c' y]. specialize (IH c').
  destruct (cs_run c' (xs ++ ys)), (cs_run c' xs). cbn [fst snd app] in *. rewrite IH. reflexivity.
Qed.
Lemma cs_run_shape {N : num} xs : forall c : cstages N, cs_stages (fst (cs_run c xs)) = cs_stages c /\ length (cs_states (fst (cs_run c xs))) = length (cs_states c).
Proof.
  induction xs as [|x xs IH]; intros c; [auto|]. cbn [cs_run]. unfold cs_filter.
  assert (L : forall (bs : list (biquad N)) us y, length (fst (cs_loop bs us y)) = length us).
  { induction bs as [|b bs IHb]; intros [|u us] y; try reflexivity. cbn [cs_loop]. destruct (st_filter u b y) as [u' z]. specialize (IHb us z). destruct (cs_loop bs us z). cbn in *. lia. }
  specialize (L (cs_stages c) (cs_states c) x). destruct (cs_loop (cs_stages c) (cs_states c) x) as [ss y]. cbn [fst] in L.
  destruct (IH (MkCStages (cs_stages c) ss)) as [A B]. destruct (cs_run _ xs). cbn [fst cs_stages cs_states] in *. split; congruence.
Qed.
Lemma rbj_run_cs {N : num} xs : forall r : rbj N, snd (rbj_run r xs) = snd (cs_run (MkCStages [r_bq r] [r_st r]) xs).
Proof.
  induction xs as [|x xs IH]; intros r; [reflexivity|]. cbn [rbj_run cs_run]. unfold rbj_filter, cs_filter. cbn [cs_stages cs_states cs_loop].
  destruct (st_filter (r_st r) (r_bq r) x) as [s y]. specialize (IH (MkRbj (r_bq r) s)). cbn [r_bq r_st] in IH.
  destruct (rbj_run _ xs), (cs_run _ xs). cbn [snd] in *. congruence.
Qed.

Section M.
  Variable m : libm.
  Notation N := (F64 m).
  Notation nan := (B754_nan : T N).

  (** ** C08 *)
  Lemma c08_cs (c : cstages N) xs ys : cs_stages c <> [] -> length (cs_states c) = length (cs_stages c) ->
    snd (cs_run c (xs ++ nan :: ys)) = snd (cs_run c xs) ++ repeat nan (S (length ys)).
  Proof.
    intros HB HL. rewrite cs_run_app. f_equal. destruct (cs_run_shape xs c) as [A B]. destruct (fst (cs_run c xs)) as [bs us]. cbn [cs_stages cs_states] in *.
    apply run_nan; [congruence|]. intros ->. destruct (cs_stages c); [elim HB; reflexivity|]. cbn in *. lia.
  Qed.
  Lemma c08_filt : (forall r th, npolar N r th <> None) -> forall t k FO (f : filt N) xs ys, (1 <= FO)%Z -> in_int (2 * FO) = true -> reachable_ok t k FO f ->
    snd (filt_run f (xs ++ nan :: ys)) = snd (filt_run f xs) ++ repeat nan (S (length ys)).
  Proof.
    intros HP t k FO f xs ys HF HI R. rewrite !filt_run_snd. pose proof (reach_filt_ok HP t k FO HF HI f R) as [[[C1 [C2 C3]] _] [L _]].
    apply c08_cs; cbn [fl_cs cs_stages cs_states]; unfold fl_stages; [|lia]. pose proof (maxStages_pos k FO HF).
    intros Q. rewrite Q in C2. cbn in C2. lia.
  Qed.
  Lemma c08_rbj (r : rbj N) xs ys : snd (rbj_run r (xs ++ nan :: ys)) = snd (rbj_run r xs) ++ repeat nan (S (length ys)).
  Proof. rewrite !rbj_run_cs. apply c08_cs; [discriminate|reflexivity]. Qed.

  (** ** C04 *)
  Lemma c04_cs (bs : list (biquad N)) t n xs : Forall fin_coeffs bs -> Forall is_zero xs ->
    Forall is_zero (snd (cs_run (MkCStages bs (repeat (st_init t) n)) xs)).
  Proof. intros H X. apply run_silent; auto. apply init_silent. Qed.
  Lemma reset_silent t (us : list (st N)) : Forall (fun s => st_topo s = t) us -> map st_reset us = repeat (st_init t) (length us).
  Proof. induction 1 as [|u us H _ IH]; [reflexivity|]. cbn. rewrite IH. f_equal. destruct u; cbn in *; subst; reflexivity. Qed.
  Lemma c04_filt : (forall r th, npolar N r th <> None) -> forall t k FO (f : filt N) xs, (1 <= FO)%Z -> in_int (2 * FO) = true -> reachable_ok t k FO f ->
    Forall fin_coeffs (fl_stages f) -> Forall is_zero xs -> Forall is_zero (snd (filt_run (filt_reset f) xs)).
  Proof.
    intros HP t k FO f xs HF HI R H X. rewrite filt_run_snd. pose proof (reach_filt_ok HP t k FO HF HI f R) as (_ & _ & T).
    unfold fl_cs, filt_reset. cbn [fl_states]. rewrite (reset_silent t) by exact T. apply c04_cs; assumption.
  Qed.
  Lemma c04_rbj (r : rbj N) xs : fin_coeffs (r_bq r) -> Forall is_zero xs -> Forall is_zero (snd (rbj_run (rbj_reset r) xs)).
  Proof.
    intros H X. rewrite rbj_run_cs. apply run_silent; auto. constructor; [|constructor]. cbn [rbj_reset r_st]. destruct (r_st r); cbn; repeat split; exists false; reflexivity.
  Qed.

  (** ** C10 *)
  Lemma F2_impl {A B} (P Q : A -> B -> Prop) l l' : (forall a b, P a b -> Q a b) -> Forall2 P l l' -> Forall2 Q l l'.
  Proof. intros H. induction 1; constructor; auto. Qed.
  Lemma map_opp_sim xs : Forall2 (sim true) (map (@Bopp 53 1024) xs) xs.
  Proof. induction xs; constructor; auto. left. reflexivity. Qed.
  Lemma c10_states (bs : list (biquad N)) us xs : Forall2 (st_sim m true) us us ->
    Forall2 (fun y y' => f_same y (Bopp y')) (snd (cs_run (MkCStages bs us) (map (@Bopp 53 1024) xs))) (snd (cs_run (MkCStages bs us) xs)).
  Proof. intros H. eapply F2_impl; [|apply (cs_run_sim m true bs _ xs us us H (map_opp_sim xs))]. intros a b. apply f_same_opp. Qed.
  Lemma c10_cs (bs : list (biquad N)) t n xs :
    Forall2 (fun y y' => f_same y (Bopp y')) (snd (cs_run (MkCStages bs (repeat (st_init t) n)) (map (@Bopp 53 1024) xs))) (snd (cs_run (MkCStages bs (repeat (st_init t) n)) xs)).
  Proof. apply c10_states, repeat_sim. Qed.
  Lemma reset_sim (us : list (st N)) : Forall2 (st_sim m true) (map st_reset us) (map st_reset us).
  Proof. induction us as [|u us IH]; constructor; auto. destruct u; constructor; apply zero_sim. Qed.
  Lemma c10_filt (f : filt N) xs :
    Forall2 (fun y y' => f_same y (Bopp y')) (snd (filt_run (filt_reset f) (map (@Bopp 53 1024) xs))) (snd (filt_run (filt_reset f) xs)).
  Proof. rewrite !filt_run_snd. apply c10_states, reset_sim. Qed.
  Lemma c10_rbj (r : rbj N) xs :
    Forall2 (fun y y' => f_same y (Bopp y')) (snd (rbj_run (rbj_reset r) (map (@Bopp 53 1024) xs))) (snd (rbj_run (rbj_reset r) xs)).
  Proof. rewrite !rbj_run_cs. apply c10_states. apply (reset_sim [r_st r]). Qed.
  (** signals that compare equal give outputs that compare equal *)
  Lemma c10_zero_sign (bs : list (biquad N)) t n xs ys : Forall2 f_same xs ys ->
    Forall2 f_same (snd (cs_run (MkCStages bs (repeat (st_init t) n)) xs)) (snd (cs_run (MkCStages bs (repeat (st_init t) n)) ys)).
  Proof.
    intros H. eapply F2_impl; [intros a b; apply f_same_sim|]. apply cs_run_sim; [apply repeat_sim|]. eapply F2_impl; [|exact H]. intros a b. apply f_same_sim.
  Qed.

  (** ** C09 *)
  Lemma c09_stages (bs cs : list (biquad N)) t n xs : Forall identity_coeffs cs -> 
    Forall is_fin (snd (cs_run (MkCStages bs (repeat (st_init t) (length bs))) xs)) ->
    Forall2 f_same (snd (cs_run (MkCStages (bs ++ cs) (repeat (st_init t) (length bs + n))) xs)) (snd (cs_run (MkCStages bs (repeat (st_init t) (length bs))) xs)).
  Proof.
    intros H F. rewrite repeat_app. eapply F2_impl; [intros a b; apply f_same_sim|]. apply run_id; auto; [apply repeat_length|apply init_fin].
  Qed.
  Lemma cs_run_nil us xs : snd (cs_run (MkCStages (N := N) [] us) xs) = xs.
  Proof. revert us. induction xs as [|x xs IH]; intros us; [reflexivity|]. cbn [cs_run]. unfold cs_filter. cbn [cs_stages cs_states cs_loop]. specialize (IH us). destruct us; cbn in *; destruct (cs_run (N := N) _ xs); cbn in *; congruence. Qed.
  Lemma c09_alone (cs : list (biquad N)) t n xs : Forall identity_coeffs cs -> Forall is_fin xs ->
    Forall2 f_same (snd (cs_run (MkCStages cs (repeat (st_init t) n)) xs)) xs.
  Proof.
    intros H F. pose proof (c09_stages [] cs t n xs H) as Q. cbn [app length repeat Nat.add] in Q. rewrite cs_run_nil in Q. exact (Q F).
  Qed.
  Lemma zero_over_one : ndiv N (nofZ N 0) (nofZ N 1) = B754_zero false.
  Proof. vm_compute. reflexivity. Qed.
  Lemma one_val : B2R (fofZ 1) = 1%R.
  Proof. replace (fofZ 1) with (@Bone 53 1024 Hprec64 Hemax64) by (apply B2SF_inj; vm_compute; reflexivity). apply Bone_correct. Qed.
  Lemma one_over_one : B2R (fdiv (fofZ 1) (fofZ 1)) = 1%R.
  Proof. replace (fdiv (fofZ 1) (fofZ 1)) with (@Bone 53 1024 Hprec64 Hemax64) by (apply B2SF_inj; vm_compute; reflexivity). apply Bone_correct. Qed.
  Lemma spare_identity (b : biquad N) : spare b -> identity_coeffs b.
  Proof.
    intros [->| ->]; unfold identity_coeffs, idb, biquad0; cbn [m_b0 m_b1 m_b2 m_a1 m_a2].
    - rewrite zero_over_one. repeat split; try (eexists; reflexivity). exact one_over_one.
    - repeat split; try (exists false; reflexivity). exact one_val.
  Qed.
  Lemma num_not_nan (z : Z) : (z = 0 \/ z = 1)%Z -> is_nan (nofZ N z) = false.
  Proof. intros [->| ->]; vm_compute; reflexivity. Qed.
  Lemma c09_filt : (forall r th, npolar N r th <> None) -> forall t k FO (f : filt N) xs, (1 <= FO)%Z -> in_int (2 * FO) = true -> reachable_ok t k FO f ->
    let active := firstn (Z.to_nat (filt_numStages f)) (fl_stages f) in
    Forall is_fin (snd (cs_run (MkCStages active (repeat (st_init t) (length active))) xs)) ->
    Forall2 f_same (snd (filt_run (filt_reset f) xs)) (snd (cs_run (MkCStages active (repeat (st_init t) (length active))) xs)).
  Proof.
    intros HP t k FO f xs HF HI R active F. rewrite filt_run_snd. pose proof (reach_filt_ok HP t k FO HF HI f R) as ([(C1 & C2 & C3) _] & L & T).
    pose proof (reach_spare (num_not_nan 0 (or_introl eq_refl)) (num_not_nan 1 (or_intror eq_refl)) HP t k FO f HF HI R) as SP.
    unfold fl_cs, filt_reset. cbn [fl_states]. rewrite (reset_silent t) by exact T.
    change (fl_stages (MkFilt (fl_pf f) (map st_reset (fl_states f)))) with (fl_stages f).
    assert (LA : (length active + (length (fl_states f) - length active))%nat = length (fl_states f)).
    { unfold active. rewrite firstn_length. unfold fl_stages, filt_numStages. lia. }
    rewrite <- LA.
    replace (fl_stages f) with (active ++ skipn (Z.to_nat (filt_numStages f)) (fl_stages f)) at 1 by apply firstn_skipn.
    apply (c09_stages active). 2: exact F.
    eapply Forall_impl; [|exact SP]. apply spare_identity.
  Qed.
End M.
