(** Proofs: how fast a filter in binary64 settles on the sinusoid of its response. *)
From Coq Require Import ZArith List Bool Reals Lra Lia.
From Coquelicot Require Import Coquelicot.
From Flocq Require Import IEEE754.BinarySingleNaN.
From Verif Require Import Num Outcome Types Biquad State Cascade PoleFilter History RealNum Float64 FloatSpec Hoare Safe Stream AnyLemmas
  SigSpec SigProofs StabProofs RespProofs SigLemmas RoundSpec RoundProofs RoundRun RoundLemmas DblSpec LayoutProofs ChainSpec RespDblSpec RunOnSpec RunOnLemmas SettleSpec Settle SettleResp SettleOn.
Import ListNotations.
Local Open Scope R_scope.

(** ** what the sinusoid leaves in the delay lines before the first sample *)
Definition wave_left (d : ideal) (fr : R) (A B : C) : R * R :=
  let u := z_inv fr in let x1 := fst (A * u)%C in let x2 := fst (A * u * u)%C in let y1 := fst (B * u)%C in let y2 := fst (B * u * u)%C in
  (i_b1 d * x1 + i_b2 d * x2 - i_a1 d * y1 - i_a2 d * y2, i_b2 d * x1 - i_a2 d * y1).
Lemma wave_back A fr i : wave A fr i = fst (A * z_inv fr * cis (2 * PI * fr * INR (S i)))%C.
Proof.
  unfold wave, z_inv. rewrite S_INR. replace (2 * PI * fr * (INR i + 1)) with (2 * PI * fr * INR i + 2 * PI * fr) by ring. rewrite cis_add. set (p := cis (2 * PI * fr * INR i)). set (t := 2 * PI * fr).
  f_equal. pose proof (cis_neg t) as E. replace (A * cis (- t) * (p * cis t))%C with (A * p * (cis t * cis (- t)))%C by ring. rewrite E. ring.
Qed.
Lemma wave_eq d fr A B p : (i_den fr d * B = i_num fr d * A)%C -> let u := z_inv fr in
  fst (B * p)%C + i_a1 d * fst (B * u * p)%C + i_a2 d * fst (B * u * u * p)%C = i_b0 d * fst (A * p)%C + i_b1 d * fst (A * u * p)%C + i_b2 d * fst (A * u * u * p)%C.
Proof.
  intros E u. assert (Q : fst (i_den fr d * B * p)%C = fst (i_num fr d * A * p)%C) by (rewrite E; reflexivity). unfold i_den, i_num, poly2 in Q. fold u in Q. clearbody u. clear E.
  destruct A as [ax ay], B as [bx by_], p as [px py], u as [ux uy]. unfold RtoC, Cplus, Cmult in *. cbn [fst snd] in *. eapply eq_trans; [|eapply eq_trans; [exact Q|]]; ring.
Qed.
Lemma wave_rings d fr A B n : (i_den fr d * B = i_num fr d * A)%C -> rings (i_a1 d) (i_a2 d) (i_b0 d) (i_b1 d) (i_b2 d) (wave_left d fr A B) (prefix n (wave A fr)) (prefix n (wave B fr)).
Proof.
  intros E. split; [rewrite !prefix_len; reflexivity|]. rewrite prefix_len. intros k Hk. unfold prefix. rewrite !back_seq by exact Hk.
  pose proof (wave_eq d fr A B (cis (2 * PI * fr * INR k)) E) as W. cbv zeta in W. fold (wave B fr k) in W. fold (wave A fr k) in W.
  assert (C0 : cis (2 * PI * fr * INR 0) = RtoC 1) by (cbn [INR]; rewrite Rmult_0_r; apply cis_0).
  destruct k as [|[|k]]; cbn [Nat.leb Nat.sub]; rewrite ?Nat.sub_0_r.
  - rewrite C0, !Cmult_1_r in W. unfold wave_left. cbn [fst]. lra.
  - rewrite <- !wave_back in W. unfold wave in W at 3 6. rewrite C0, !Cmult_1_r in W. unfold wave_left. cbn [snd]. lra.
  - rewrite <- !wave_back in W. assert (TW : forall D, wave (D * z_inv fr)%C fr (S k) = wave D fr k) by (intros D; unfold wave at 1; rewrite <- wave_back; reflexivity). rewrite !TW in W. lra.
Qed.

Lemma fst_mod (z : C) : Rabs (fst z) <= Cmod z.
Proof. eapply Rle_trans; [apply Rmax_l|apply Rmax_Cmod]. Qed.
Lemma zi_mod fr : Cmod (z_inv fr) = 1.
Proof. unfold z_inv. apply RespProofs.cis_mod. Qed.
Lemma wave_left_bd d fr A B c : Cmod A <= c -> Cmod B <= c -> let a := Rabs (i_a1 d) + Rabs (i_a2 d) in let b := Rabs (i_b0 d) + Rabs (i_b1 d) + Rabs (i_b2 d) in
  Rabs (fst (wave_left d fr A B)) <= (1 + a) * (1 + b) * c /\ Rabs (snd (wave_left d fr A B)) <= (1 + a) * (1 + b) * c.
Proof.
  intros HA HB a b. pose proof (Cmod_ge_0 A) as C0. assert (M1 : forall D, Cmod D <= c -> Rabs (fst (D * z_inv fr)%C) <= c) by (intros D H; eapply Rle_trans; [apply fst_mod|]; rewrite Cmod_mult, zi_mod, Rmult_1_r; exact H).
  assert (M2 : forall D, Cmod D <= c -> Rabs (fst (D * z_inv fr * z_inv fr)%C) <= c) by (intros D H; apply M1; rewrite Cmod_mult, zi_mod, Rmult_1_r; exact H).
  unfold wave_left. cbv zeta. cbn [fst snd]. pose proof (M1 A HA) as X1. pose proof (M2 A HA) as X2. pose proof (M1 B HB) as Y1. pose proof (M2 B HB) as Y2.
  revert X1 X2 Y1 Y2. generalize (fst (A * z_inv fr)%C), (fst (A * z_inv fr * z_inv fr)%C), (fst (B * z_inv fr)%C), (fst (B * z_inv fr * z_inv fr)%C). intros x1 x2 y1 y2 X1 X2 Y1 Y2.
  assert (PM : forall u v, Rabs v <= c -> Rabs (u * v) <= Rabs u * c) by (intros u v H; rewrite Rabs_mult; apply Rmult_le_compat_l; [apply Rabs_pos|exact H]).
  pose proof (PM (i_b1 d) x1 X1) as P1. pose proof (PM (i_b2 d) x2 X2) as P2. pose proof (PM (i_a1 d) y1 Y1) as P3. pose proof (PM (i_a2 d) y2 Y2) as P4. pose proof (PM (i_b2 d) x1 X1) as P5. pose proof (PM (i_a2 d) y1 Y1) as P6.
  pose proof (Rabs_pos (i_a1 d)). pose proof (Rabs_pos (i_a2 d)). pose proof (Rabs_pos (i_b0 d)). pose proof (Rabs_pos (i_b1 d)). pose proof (Rabs_pos (i_b2 d)).
  assert (T : (a + b) * c <= (1 + a) * (1 + b) * c) by (apply Rmult_le_compat_r; [lra|]; assert (0 <= a * b) by (apply Rmult_le_pos; unfold a, b; lra); lra).
  assert (N1 : 0 <= Rabs (i_a1 d) * c) by (apply Rmult_le_pos; lra). assert (N2 : 0 <= Rabs (i_b1 d) * c) by (apply Rmult_le_pos; lra). assert (N3 : 0 <= Rabs (i_b0 d) * c) by (apply Rmult_le_pos; lra).
  split; (eapply Rle_trans; [|exact T]); unfold a, b.
  - eapply Rle_trans; [apply Rabs_triang|]. rewrite Rabs_Ropp. eapply Rle_trans; [apply Rplus_le_compat_r, Rabs_triang|]. rewrite Rabs_Ropp. eapply Rle_trans; [apply Rplus_le_compat_r, Rplus_le_compat_r, Rabs_triang|]. lra.
  - eapply Rle_trans; [apply Rabs_triang|]. rewrite Rabs_Ropp. lra.
Qed.

(** ** the cascade *)
Fixpoint wave_lefts (ds : list ideal) (fr : R) (A : C) : list (R * R) :=
  match ds with [] => [] | d :: ds' => let B := (i_resp [d] fr * A)%C in wave_left d fr A B :: wave_lefts ds' fr B end.
Fixpoint levels (c : R) (ds : list ideal) (fr : R) (A : C) : Prop :=
  Cmod A <= c /\ match ds with [] => True | d :: ds' => levels c ds' fr (i_resp [d] fr * A)%C end.
Lemma resp_one d fr : i_resp [d] fr = (i_num fr d / i_den fr d)%C.
Proof. unfold i_resp, cprod. cbn [map fold_right]. rewrite !Cmult_1_r. reflexivity. Qed.
Lemma den_nz d fr : stable_poly (i_a1 d) (i_a2 d) -> i_den fr d <> 0%C.
Proof. intros H. pose proof (den_pos [d] fr ltac:(constructor; [exact H|constructor])) as D. unfold cprod in D. cbn [map fold_right] in D. rewrite Cmult_1_r in D. apply Cmod_gt_0. exact D. Qed.
Lemma resp_cons d ds fr : stable_poly (i_a1 d) (i_a2 d) -> List.Forall (fun d => stable_poly (i_a1 d) (i_a2 d)) ds -> i_resp (d :: ds) fr = (i_resp ds fr * i_resp [d] fr)%C.
Proof.
  intros H1 H2. rewrite resp_one. unfold i_resp, cprod. cbn [map fold_right]. fold (cprod (map (i_num fr) ds)). fold (cprod (map (i_den fr) ds)). pose proof (den_nz d fr H1). pose proof (den_pos ds fr H2) as P. apply Cmod_gt_0 in P. field. split; assumption.
Qed.
Lemma wave_exact l fr n : List.Forall (fun d => stable_poly (i_a1 d) (i_a2 d)) (ids l) -> forall A, exact_from l (wave_lefts (ids l) fr A) (prefix n (wave A fr)) (prefix n (wave (i_resp (ids l) fr * A)%C fr)).
Proof.
  induction l as [|s l IH]; intros H A.
  - cbn. f_equal. f_equal. unfold i_resp, cprod. cbn [map fold_right]. field. apply C1_nz.
  - cbn [ids map] in H. inversion H; subst. fold (ids l) in *. cbn [ids map wave_lefts exact_from]. fold (ids l). set (d := Ideal _ _ _ _ _) in *. exists (prefix n (wave (i_resp [d] fr * A)%C fr)). split.
    + apply (wave_rings d fr A (i_resp [d] fr * A)%C n). rewrite resp_one. pose proof (den_nz d fr ltac:(assumption)). field. assumption.
    + rewrite (resp_cons d (ids l) fr) by assumption. replace (i_resp (ids l) fr * i_resp [d] fr * A)%C with (i_resp (ids l) fr * (i_resp [d] fr * A))%C by ring. apply IH. assumption.
Qed.
Lemma wave_lefts_len ds fr : forall A, length (wave_lefts ds fr A) = length ds.
Proof. induction ds as [|d ds IH]; intros A; [reflexivity|]. cbn [wave_lefts length]. rewrite IH. reflexivity. Qed.
Lemma wave_lefts_diff {m} c fr (bs : list (biquad (F64 m))) : forall ss l A, 0 <= c -> length ss = length bs -> List.Forall2 sect_of bs l -> List.Forall (st_within c) ss -> levels c (ids l) fr A ->
  List.Forall2 (fun s p => Rabs (fst (fst p) - fst (snd p)) <= 2 * (1 + s_A s) * (1 + s_B s) * c /\ Rabs (snd (fst p) - snd (snd p)) <= 2 * (1 + s_A s) * (1 + s_B s) * c) l (combine (lefts bs ss) (wave_lefts (ids l) fr A)).
Proof.
  induction bs as [|b bs IH]; intros [|s ss] l A Hc L1 H2 W V; try discriminate; inversion H2; subst; [constructor|]. inversion W; subst. cbn [ids map levels] in V. destruct V as [V1 V2]. fold (ids l') in *.
  cbn [lefts combine map fst snd ids wave_lefts]. fold (ids l'). set (d := Ideal _ _ _ _ _) in *. constructor.
  - assert (V3 : Cmod (i_resp [d] fr * A)%C <= c) by (destruct (ids l'); apply V2). pose proof (wave_left_bd d fr A (i_resp [d] fr * A)%C c V1 V3) as [K3 K4].
    match goal with H : sect_of _ _ |- _ => destruct H as (Ea1 & Ea2 & Eb0 & Eb1 & Eb2) end. destruct (left_bd b s c Hc ltac:(assumption)) as [K1 K2]. rewrite <- ?Ea1, <- ?Ea2, <- ?Eb0, <- ?Eb1, <- ?Eb2 in K1, K2.
    cbv zeta in K1, K2, K3, K4. cbn [fst snd]. unfold s_A, s_B.
    match type of K3 with _ <= ?u => set (U := u) in * end. assert (K1' : Rabs (fst (left_over b s)) <= U) by (eapply Rle_trans; [exact K1|right; unfold U, d; cbn [i_a1 i_a2 i_b0 i_b1 i_b2]; ring]). assert (K2' : Rabs (snd (left_over b s)) <= U) by (eapply Rle_trans; [exact K2|right; unfold U, d; cbn [i_a1 i_a2 i_b0 i_b1 i_b2]; ring]).
    match goal with |- _ <= ?v /\ _ => replace v with (U + U) by (unfold U, d; cbn [i_a1 i_a2 i_b0 i_b1 i_b2]; ring) end. clearbody U.
    split; unfold Rminus; (eapply Rle_trans; [apply Rabs_triang|]); rewrite Rabs_Ropp; lra.
  - apply IH; auto.
Qed.
Lemma firstn_all_of {T} (P : T -> Prop) (l : list T) j : List.Forall P l -> List.Forall P (firstn j l).
Proof. intros H. rewrite <- (firstn_skipn j l) in H. apply List.Forall_app in H. apply H. Qed.
Lemma levels_of c fr ds : List.Forall (fun d => stable_poly (i_a1 d) (i_a2 d)) ds -> forall A, (forall j, (j <= length ds)%nat -> Cmod (i_resp (firstn j ds) fr * A)%C <= c) -> levels c ds fr A.
Proof.
  assert (R0 : i_resp [] fr = RtoC 1) by (unfold i_resp, cprod; cbn [map fold_right]; field; apply C1_nz).
  induction 1 as [|d ds H HS IH]; intros A V; pose proof (V O ltac:(lia)) as V0; cbn [firstn] in V0; rewrite R0, Cmult_1_l in V0; (split; [exact V0|]); [exact I|].
  apply IH. intros j Hj. specialize (V (S j) ltac:(cbn [length]; lia)). cbn [firstn] in V. rewrite (resp_cons d (firstn j ds) fr H (firstn_all_of _ _ _ HS)) in V.
  replace (i_resp (firstn j ds) fr * (i_resp [d] fr * A))%C with (i_resp (firstn j ds) fr * i_resp [d] fr * A)%C by ring. exact V.
Qed.
Lemma c97_cascade m (bs : list (biquad (F64 m))) (l : list sect) (ss : list (st (F64 m))) (xs : list f64) c X e rho fr (A : C) :
  List.Forall fin_coeffs bs -> List.Forall2 sect_of bs l -> ok_from l c X -> rate_ok rho l -> 0 <= X -> 0 <= e -> length ss = length bs -> List.Forall (st_within c) ss ->
  (forall j, (j <= length bs)%nat -> Cmod (i_resp (map stored (firstn j bs)) fr * A)%C <= c) -> follows A fr e X xs ->
  let ys := snd (cs_run (MkCStages bs ss) xs) : list f64 in
  length ys = length xs /\ forall n, (n < length xs)%nat -> FloatSpec.is_fin (nth n ys f0) /\
    Rabs (B2R (nth n ys f0) - wave (i_resp (map stored bs) fr * A)%C fr n) <= error_from l c X e + fade rho l c 0 / rho ^ n.
Proof.
  intros Hf H2 Hok Ra HX He Ls HW HV Hin ys. pose proof (ok_gains _ _ _ Hok) as Hg. pose proof (Forall2_len _ _ _ H2) as Ll. pose proof (ids_stored bs l H2) as IS.
  assert (ST : List.Forall (fun d => stable_poly (i_a1 d) (i_a2 d)) (ids l)). { unfold ids. rewrite List.Forall_map. eapply List.Forall_impl; [|exact Hg]. intros s H. exact (gain_stable _ _ _ H). }
  assert (LV : levels c (ids l) fr A). { apply levels_of; [exact ST|]. intros j Hj. rewrite <- IS in Hj |- *. rewrite map_length in Hj. rewrite firstn_map. apply HV. exact Hj. }
  assert (Hc : 0 <= c). { pose proof (Cmod_ge_0 A). destruct (ids l); cbn [levels] in LV; destruct LV; lra. }
  rewrite IS. pose proof (follows_in _ _ _ _ _ Hin) as Hxs. set (us := prefix (length xs) (wave A fr)). assert (Lu : length us = length xs) by apply prefix_len.
  pose proof (wave_exact l fr (length xs) ST A) as E0. fold us in E0. pose proof (real_run bs ss l us Ls H2) as E1. set (zs := snd (cs_run (MkCStages (map real_bq bs) (map real_st ss)) us)) in *. clearbody zs.
  destruct (fade_cas rho c l Ra Hc Hg (lefts bs ss) (wave_lefts (ids l) fr A) us us zs (prefix (length xs) (wave (i_resp (ids l) fr * A)%C fr)) 0) as (_ & _ & Q); auto; try lra.
  { rewrite lefts_len by exact Ls. exact Ll. } { rewrite wave_lefts_len. unfold ids. apply map_length. }
  { apply wave_lefts_diff; assumption. }
  { intros i _. rewrite Rminus_diag_eq, Rabs_R0 by reflexivity. lra. }
  destruct (cas_on bs ss l xs c X us zs e) as (L1 & L2 & O & W & E); auto.
  { intros i Hi. unfold us. rewrite prefix_nth by exact Hi. apply Hin. exact Hi. }
  fold ys in L1, O, E. split; [exact L1|]. intros i H3. split; [apply (forall_nth _ ys i O); lia|]. specialize (E i H3). rewrite Lu in Q. specialize (Q i H3). rewrite prefix_nth in Q by exact H3.
  assert (P : 0 < rho ^ i) by (apply pow_lt; destruct Ra; lra). set (wv := wave (i_resp (ids l) fr * A)%C fr i) in *.
  assert (Q' : Rabs (nth i zs 0 - wv) <= fade rho l c 0 / rho ^ i). { apply (Rmult_le_reg_r (rho ^ i)); [exact P|]. replace (fade rho l c 0 / rho ^ i * rho ^ i) with (fade rho l c 0) by (field; lra). exact Q. }
  change (Rabs (B2R (nth i ys f0) - nth i zs 0) <= error_from l c X e) in E. change (Rabs (B2R (nth i ys f0) - wv) <= error_from l c X e + fade rho l c 0 / rho ^ i).
  revert E Q'. generalize (B2R (nth i ys f0)), wv, (nth i zs 0), (error_from l c X e), (fade rho l c 0 / rho ^ i). intros y v u k p E Q'.
  replace (y - v) with ((y - u) + (u - v)) by ring. eapply Rle_trans; [apply Rabs_triang|]. lra.
Qed.
Lemma c97_filter m : (forall r th, npolar (F64 m) r th <> None) -> forall t k FO (f : filt (F64 m)) (l : list sect) (xs : list f64) c X e rho fr (A : C),
  (1 <= FO)%Z -> in_int (2 * FO) = true -> reachable_ok t k FO f ->
  List.Forall fin_coeffs (fl_stages f) -> List.Forall2 sect_of (fl_stages f) l -> ok_from l c X -> rate_ok rho l -> 0 <= X -> 0 <= e -> List.Forall (st_within c) (fl_states f) ->
  (forall j, (j <= length (fl_stages f))%nat -> Cmod (i_resp (map stored (firstn j (fl_stages f))) fr * A)%C <= c) -> follows A fr e X xs ->
  let ys := snd (filt_run f xs) : list f64 in
  length ys = length xs /\ forall n, (n < length xs)%nat -> FloatSpec.is_fin (nth n ys f0) /\
    Rabs (B2R (nth n ys f0) - wave (i_resp (map stored (fl_stages f)) fr * A)%C fr n) <= error_from l c X e + fade rho l c 0 / rho ^ n.
Proof.
  intros HP t k FO f l xs c X e rho fr A HF HI R Hf H2 Hok Ra HX He HW HV Hin. rewrite filt_run_out.
  apply c97_cascade; try assumption. exact (filt_lens t k FO f (reach_filt_ok HP t k FO HF HI f R)).
Qed.
