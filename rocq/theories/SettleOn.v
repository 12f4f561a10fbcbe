(** Proofs: a filter in binary64 that runs on without reset settles on the sinusoid of its response. *)
From Coq Require Import ZArith List Bool Reals Lra Lia.
From Coquelicot Require Import Coquelicot.
From Flocq Require Import IEEE754.BinarySingleNaN.
From Verif Require Import Num Outcome Types Biquad State Cascade PoleFilter History RealNum Float64 FloatSpec Hoare Safe Stream AnyLemmas
  SigSpec SigProofs StabProofs RespProofs SigLemmas RoundSpec RoundProofs RoundRun RoundLemmas DblSpec LayoutProofs ChainSpec RespDblSpec RunOnSpec RunOnLemmas SettleSpec Settle.
Import ListNotations.
Local Open Scope R_scope.

(** ** a rate of forgetting always exists *)
Lemma rate_exists l : List.Forall (fun s => rec_gain (s_a1 s) (s_a2 s) (s_G s)) l -> exists rho, 1 < rho /\ rate_ok rho l.
Proof.
  induction 1 as [|s l H _ IH]; [exists 2; split; [lra|]; split; [lra|constructor]|]. destruct IH as (r & R1 & _ & R2).
  pose proof (s_A_pos s) as HA. assert (HG : 1 <= s_G s) by (eapply gain_ge1; eassumption). set (K := s_G s * s_A s) in *. assert (HK : 0 <= K) by (apply Rmult_le_pos; lra).
  set (d := / (6 * K + 1)). assert (D0 : 0 < d) by (apply Rinv_0_lt_compat; lra). assert (D1 : (6 * K + 1) * d = 1) by (unfold d; field; lra).
  set (rho := Rmin r (1 + d)). assert (Q1 : 1 < rho) by (unfold rho; apply Rmin_glb_lt; lra). pose proof (Rmin_l r (1 + d)) as Q2. pose proof (Rmin_r r (1 + d)) as Q3. fold rho in Q2, Q3.
  exists rho. split; [exact Q1|]. split; [lra|]. constructor.
  - fold K. assert (d <= 1) by nra. assert (rho ^ 2 - 1 <= 3 * d).
    { replace (rho ^ 2 - 1) with ((rho - 1) * (rho + 1)) by ring. apply Rle_trans with (d * (rho + 1)); [apply Rmult_le_compat_r; lra|]. rewrite (Rmult_comm 3). apply Rmult_le_compat_l; lra. }
    apply Rle_trans with (K * (3 * d)); [apply Rmult_le_compat_l; lra|]. lra.
  - eapply List.Forall_impl; [|apply List.Forall_and; [exact R2|apply List.Forall_forall; intros x _; exact (s_A_pos x)]]. cbv beta. intros x [B HX].
    assert (rho ^ 2 <= r ^ 2) by (apply pow_incr; lra). assert (1 <= rho ^ 2) by (apply pow_R1_Rle; lra).
    destruct (Rle_lt_dec (s_G x * s_A x) 0) as [N|P]; [apply Rle_trans with (0 * (rho ^ 2 - 1)); [apply Rmult_le_compat_r; lra|lra]|]. eapply Rle_trans; [|exact B]. apply Rmult_le_compat_l; lra.
Qed.
Lemma fade_small rho F eps : 1 < rho -> 0 <= F -> 0 < eps -> exists N, forall n, (N <= n)%nat -> F / rho ^ n <= eps.
Proof.
  intros Hr HF He. assert (Q : Rabs (/ rho) < 1). { rewrite Rabs_pos_eq by (left; apply Rinv_0_lt_compat; lra). rewrite <- Rinv_1. apply Rinv_lt_contravar; lra. }
  destruct (pow_lt_1_zero (/ rho) Q (eps / (F + 1)) ltac:(apply Rdiv_lt_0_compat; lra)) as [N HN]. exists N. intros n Hn. specialize (HN n Hn).
  assert (P : 0 < rho ^ n) by (apply pow_lt; lra). rewrite Rabs_pos_eq in HN by (apply pow_le; left; apply Rinv_0_lt_compat; lra). rewrite pow_inv in HN.
  unfold Rdiv. apply Rle_trans with (F * (eps / (F + 1))); [apply Rmult_le_compat_l; lra|]. apply Rmult_le_reg_r with (F + 1); [lra|]. replace (F * (eps / (F + 1)) * (F + 1)) with (F * eps) by (field; lra). nra.
Qed.
Lemma fade_pos rho l c : 1 <= rho -> 0 <= c -> List.Forall (fun s => rec_gain (s_a1 s) (s_a2 s) (s_G s)) l -> forall E, 0 <= E -> 0 <= fade rho l c E.
Proof.
  intros Hr Hc. induction 1 as [|s l H _ IH]; intros E HE; cbn [fade]; [exact HE|]. apply IH. pose proof (s_A_pos s). pose proof (s_B_pos s). assert (1 <= s_G s) by (eapply gain_ge1; eassumption).
  assert (0 <= rho ^ 2) by (apply pow_le; lra). assert (0 <= s_B s * E) by (apply Rmult_le_pos; assumption).
  assert (0 <= 2 * (1 + s_A s) * (1 + s_B s) * c) by (apply Rmult_le_pos; [apply Rmult_le_pos; lra|exact Hc]). apply Rmult_le_pos; [apply Rmult_le_pos; lra|lra].
Qed.

Definition ids (l : list sect) : list ideal := map (fun s => Ideal (s_a1 s) (s_a2 s) (s_b0 s) (s_b1 s) (s_b2 s)) l.
Lemma ids_stored {m} (bs : list (biquad (F64 m))) l : List.Forall2 sect_of bs l -> map stored bs = ids l.
Proof. induction 1 as [|b s bs l (H1 & H2 & H3 & H4 & H5) _ IH]; [reflexivity|]. unfold ids in *. cbn [map]. rewrite IH, H1, H2, H3, H4, H5. reflexivity. Qed.
Lemma ids_exact l : forall xs zs, ideal_out (ids l) xs zs -> exact_out l xs zs.
Proof. induction l as [|s l IH]; intros xs zs H; [exact H|]. cbn [ids map ideal_out] in H. destruct H as (us & D & H). exists us. split; [exact D|]. apply IH. exact H. Qed.

Lemma c95_cascade (l : list sect) c X e fr (A : C) eps : ok_from l c X -> 0 <= X -> 0 <= c -> 0 <= e -> 0 < eps ->
  exists N, forall m (bs : list (biquad (F64 m))) (ss : list (st (F64 m))) (xs : list f64),
  List.Forall fin_coeffs bs -> List.Forall2 sect_of bs l -> length ss = length bs -> List.Forall (st_within c) ss -> follows A fr e X xs ->
  let ys := snd (cs_run (MkCStages bs ss) xs) : list f64 in
  length ys = length xs /\ settles N (i_resp (map stored bs) fr * A)%C fr (error_from l c X e + eps) ys.
Proof.
  intros Hok HX Hc He Hp. pose proof (ok_gains _ _ _ Hok) as Hg. destruct (rate_exists l Hg) as (rho & Hr & Ra).
  assert (ST : List.Forall (fun d => stable_poly (i_a1 d) (i_a2 d)) (ids l)). { unfold ids. rewrite List.Forall_map. eapply List.Forall_impl; [|exact Hg]. intros s H. exact (gain_stable _ _ _ H). }
  destruct (ideal_steady (ids l) fr A (eps / 2) ST ltac:(lra)) as [N1 HN1].
  destruct (fade_small rho (fade rho l c 0) (eps / 2) Hr (fade_pos rho l c ltac:(lra) Hc Hg 0 (Rle_refl 0)) ltac:(lra)) as [N2 HN2].
  exists (max N1 N2). intros m bs ss xs Hf H2 Ls HW Hin ys. rewrite (ids_stored bs l H2). pose proof (follows_in _ _ _ _ _ Hin) as Hxs.
  change (fun i : nat => fst (A * cis (2 * PI * fr * INR i))%C) with (wave A fr) in HN1. set (z := flts (map rbq (ids l)) (wave A fr)) in *.
  set (us := prefix (length xs) (wave A fr)). assert (Lu : length us = length xs) by apply prefix_len.
  pose proof (rest_exact DF1 bs l us (prefix (length xs) z) H2 (ids_exact l _ _ (ideal_sig (ids l) (wave A fr) (length xs)))) as E0.
  pose proof (real_run bs ss l us Ls H2) as E1. set (zs := snd (cs_run (MkCStages (map real_bq bs) (map real_st ss)) us)) in *. clearbody zs.
  pose proof (Forall2_len _ _ _ H2) as Ll.
  destruct (fade_cas rho c l Ra Hc Hg (lefts bs ss) (lefts bs (repeat (st_init DF1) (length bs))) us us zs (prefix (length xs) z) 0) as (_ & _ & Q); auto; try lra.
  { rewrite lefts_len by exact Ls. exact Ll. } { rewrite lefts_len by apply repeat_length. exact Ll. }
  { apply lefts_diff; try assumption; [apply repeat_length|]. apply List.Forall_forall. intros s Hs. apply repeat_spec in Hs. subst s. apply init_within, Hc. }
  { intros i _. rewrite Rminus_diag_eq, Rabs_R0 by reflexivity. lra. }
  destruct (cas_on bs ss l xs c X us zs e) as (L1 & L2 & O & W & E); auto.
  { intros i Hi. unfold us. rewrite prefix_nth by exact Hi. apply Hin. exact Hi. }
  fold ys in L1, O, E. split; [exact L1|]. intros i [H1 H3]. split; [apply (forall_nth _ ys i O H3)|]. rewrite L1 in H3. specialize (E i H3). rewrite Lu in Q. specialize (Q i H3). rewrite prefix_nth in Q by exact H3.
  specialize (HN1 i ltac:(lia)). specialize (HN2 i ltac:(lia)). fold (wave (i_resp (ids l) fr * A)%C fr i) in HN1.
  assert (P : 0 < rho ^ i) by (apply pow_lt; lra).
  assert (Q' : Rabs (nth i zs 0 - z i) <= eps / 2). { eapply Rle_trans; [|exact HN2]. apply (Rmult_le_reg_r (rho ^ i)); [exact P|]. replace (fade rho l c 0 / rho ^ i * rho ^ i) with (fade rho l c 0) by (field; lra). exact Q. }
  change (Rabs (B2R (nth i ys f0) - wave (i_resp (ids l) fr * A)%C fr i) <= error_from l c X e + eps).
  change (Rabs (B2R (nth i ys f0) - nth i zs 0) <= error_from l c X e) in E. change (Rabs (z i - wave (i_resp (ids l) fr * A)%C fr i) <= eps / 2) in HN1.
  revert E HN1 Q'. generalize (B2R (nth i ys f0)), (wave (i_resp (ids l) fr * A)%C fr i), (z i), (nth i zs 0), (error_from l c X e). intros y w v u k E HN Q'.
  replace (y - w) with ((y - u) + ((u - v) + (v - w))) by ring. eapply Rle_trans; [apply Rabs_triang|]. eapply Rle_trans; [apply Rplus_le_compat_l, Rabs_triang|]. lra.
Qed.

Lemma c95_filter m : (forall r th, npolar (F64 m) r th <> None) -> forall t k FO (f : filt (F64 m)) (l : list sect) c X e fr (A : C) eps,
  (1 <= FO)%Z -> in_int (2 * FO) = true -> reachable_ok t k FO f ->
  List.Forall fin_coeffs (fl_stages f) -> List.Forall2 sect_of (fl_stages f) l -> ok_from l c X -> 0 <= X -> 0 <= c -> List.Forall (st_within c) (fl_states f) -> 0 <= e -> 0 < eps ->
  exists N, forall xs : list f64, follows A fr e X xs ->
  let ys := snd (filt_run f xs) : list f64 in
  length ys = length xs /\ settles N (i_resp (map stored (fl_stages f)) fr * A)%C fr (error_from l c X e + eps) ys.
Proof.
  intros HP t k FO f l c X e fr A eps HF HI R Hf H2 Hok HX Hc HW He Hp. destruct (c95_cascade l c X e fr A eps Hok HX Hc He Hp) as [N HN]. exists N. intros xs Hin. rewrite filt_run_out.
  apply (HN m (fl_stages f) (fl_states f) xs Hf H2); auto. exact (filt_lens t k FO f (reach_filt_ok HP t k FO HF HI f R)).
Qed.
(** parameters changed in the middle of a signal, no reset: N does not depend on the signal before the change *)
Lemma c95_switch m : (forall r th, npolar (F64 m) r th <> None) -> forall (l l2 : list sect) c X e fr (A : C) eps, 0 <= X -> 0 <= c -> 0 <= e -> 0 < eps -> ok_from l c X -> let c2 := held l c X in ok_from l2 c2 X ->
  exists N, forall t k FO (f f2 : filt (F64 m)) (xs xs2 : list f64) r q,
  (1 <= FO)%Z -> in_int (2 * FO) = true -> reachable_ok t k FO f -> order_ok r ->
  List.Forall fin_coeffs (fl_stages f) -> List.Forall2 sect_of (fl_stages f) l -> List.Forall (st_within c) (fl_states f) ->
  List.Forall (fun x => FloatSpec.is_fin x /\ Rabs (B2R x) <= X) xs -> filt_setupN k FO r q (fst (filt_run f xs)) = Ok f2 tt ->
  List.Forall fin_coeffs (fl_stages f2) -> List.Forall2 sect_of (fl_stages f2) l2 -> follows A fr e X xs2 ->
  let ys := snd (filt_run f2 xs2) : list f64 in
  length ys = length xs2 /\ settles N (i_resp (map stored (fl_stages f2)) fr * A)%C fr (error_from l2 c2 X e + eps) ys.
Proof.
  intros HP l l2 c X e fr A eps HX Hc He Hp Hok c2 Hok2. assert (C2 : 0 <= c2) by (pose proof (held_ge l c X Hok HX Hc); unfold c2; lra).
  destruct (c95_cascade l2 c2 X e fr A eps Hok2 HX C2 He Hp) as [N HN]. exists N. intros t k FO f f2 xs xs2 r q HF HI R Hr Hf H2 HW Hxs ES Hf2 H22 Hin.
  pose proof (filt_lens t k FO f (reach_filt_ok HP t k FO HF HI f R)) as Ls.
  destruct (c87_cs m (fl_stages f) l (fl_states f) xs c X Hf H2 Hok HX Hc Ls HW Hxs) as (_ & _ & _ & W). change (MkCStages (fl_stages f) (fl_states f)) with (fl_cs f) in W. rewrite <- (proj1 (filt_run_states f xs)) in W. fold c2 in W.
  assert (ST : fl_states f2 = fl_states (fst (filt_run f xs))) by (apply (proj1 (setup_keeps_states k FO r q (nofZ (F64 m) 0) (fst (filt_run f xs)) f2)); exact (f_equal after ES)).
  rewrite filt_run_out. apply (HN m (fl_stages f2) (fl_states f2) xs2 Hf2 H22); [|rewrite ST; exact W|exact Hin].
  assert (R2 : reachable_ok t k FO f2).
  { destruct R as (os & Ho & Hs). exists (os ++ map (fun x => OpFilter (N := F64 m) x) xs ++ [OpSetupN r q]). split.
    - apply List.Forall_app. split; [exact Ho|]. apply List.Forall_app. split; [|repeat constructor; exact Hr]. apply List.Forall_forall. intros o Hio. apply in_map_iff in Hio. destruct Hio as (x & <- & _). exact I.
    - assert (APP : forall (os1 os2 : list (op (F64 m))) (g g' : filt (F64 m)), steps k FO os1 g = Some g' -> steps k FO (os1 ++ os2) g = steps k FO os2 g').
      { induction os1 as [|o os1 IH]; intros os2 g g' H; simpl in *; [congruence|]. destruct (step k FO o g); [apply IH, H|discriminate]. }
      rewrite (APP _ _ _ _ Hs). assert (RUN : forall (ys : list (T (F64 m))) (g : filt (F64 m)), steps k FO (map (fun x => OpFilter (N := F64 m) x) ys) g = Some (fst (filt_run g ys))).
      { clear. induction ys as [|y ys IH]; intros g; [reflexivity|]. cbn [map steps step]. rewrite IH. cbn [filt_run]. destruct (filt_filter g y) as [g' o]. cbn [fst]. destruct (filt_run g' ys). reflexivity. }
      rewrite (APP _ _ _ _ (RUN xs f)). cbn [steps step]. exact (f_equal (fun r => match after r with Some g => Some g | None => None end) ES). }
  exact (filt_lens t k FO f2 (reach_filt_ok HP t k FO HF HI f2 R2)).
Qed.
