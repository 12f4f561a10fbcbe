(** Proofs: state structures, order of the stages and linearity in binary64, up to rounding. *)
From Coq Require Import ZArith List Bool Reals Lra Lia Permutation.
From Flocq Require Import IEEE754.BinarySingleNaN.
From Verif Require Import Num Outcome Types Biquad State Cascade Exact RealNum Float64 FloatSpec Stream SigSpec SigProofs SigLemmas
  RoundSpec RoundProofs RoundRun RoundLemmas RunOnSpec RunOn RunOnLemmas.
Import ListNotations.
Local Open Scope R_scope.

Lemma near3 (ys ys' : list f64) zs e e' : List.Forall2 (fun y z => Rabs (B2R y - z) <= e) ys zs -> List.Forall2 (fun y z => Rabs (B2R y - z) <= e') ys' zs ->
  List.Forall2 (fun y y' => Rabs (B2R y - B2R y') <= e + e') ys ys'.
Proof.
  intros H. revert ys'. induction H as [|y z ys zs A H IH]; intros ys' H'; inversion H'; subst; constructor.
  - match goal with Q : Rabs (B2R ?v - z) <= e' |- _ => revert A Q; generalize (B2R y), (B2R v) end. intros a b. unfold Rabs; repeat destruct (Rcase_abs _); lra.
  - apply IH. assumption.
Qed.
Lemma c90_topologies m (bs : list (biquad (F64 m))) (l : list sect) t t' (xs : list f64) X :
  List.Forall fin_coeffs bs -> List.Forall2 sect_of bs l -> sects_ok l X -> 0 <= X -> List.Forall (fun x => FloatSpec.is_fin x /\ Rabs (B2R x) <= X) xs ->
  let ys := snd (cs_run (MkCStages bs (repeat (st_init t) (length bs))) xs) : list f64 in let ys' := snd (cs_run (MkCStages bs (repeat (st_init t') (length bs))) xs) : list f64 in
  List.Forall2 (fun y y' => Rabs (B2R y - B2R y') <= 2 * total_error l X 0) ys ys'.
Proof.
  intros Hf H2 Hok HX Hxs ys ys'. destruct (exact_exists l (map B2R xs)) as (zs & Ex & _).
  destruct (c54_cs m bs l t xs X zs Hf H2 Hok HX Hxs Ex) as (_ & _ & _ & A). destruct (c54_cs m bs l t' xs X zs Hf H2 Hok HX Hxs Ex) as (_ & _ & _ & B).
  fold ys in A. fold ys' in B. replace (2 * total_error l X 0) with (total_error l X 0 + total_error l X 0) by ring. exact (near3 ys ys' zs _ _ A B).
Qed.
(** the exact output as a run over the real numbers *)
Lemma exact_real {m} (bs : list (biquad (F64 m))) l xs zs : List.Forall2 sect_of bs l ->
  exact_out l xs zs <-> zs = snd (cs_run (MkCStages (map real_bq bs) (repeat (st_init DF1) (length bs))) xs).
Proof.
  intros H2. destruct (exact_exists l xs) as (z0 & E0 & U).
  assert (Q : forall z, exact_out l xs z -> z = snd (cs_run (MkCStages (map real_bq bs) (repeat (st_init (N := RN) DF1) (length bs))) xs)).
  { intros z E. apply (rest_exact DF1 bs l xs z H2) in E. apply (c87_exact m bs l _ xs z (repeat_length _ _) H2) in E. rewrite E. f_equal. f_equal. f_equal. clear.
    induction (length bs) as [|n IH]; [reflexivity|]. cbn [repeat map]. f_equal. exact IH. }
  split; [apply Q|]. intros ->. rewrite <- (Q z0 E0). exact E0.
Qed.
Lemma exact_perm {m} (bs bs' : list (biquad (F64 m))) l l' xs zs : List.Forall2 sect_of bs l -> List.Forall2 sect_of bs' l' -> Permutation bs bs' -> exact_out l xs zs -> exact_out l' xs zs.
Proof.
  intros H2 H2' P E. apply (exact_real bs l xs zs H2) in E. apply (exact_real bs' l' xs zs H2'). rewrite E. clear E.
  set (u := map real_bq bs). set (u' := map real_bq bs').
  assert (PU : Permutation (map (emb_bq (strict := false)) u) (map emb_bq u')) by (apply Permutation_map, Permutation_map, P).
  assert (FU : List.Forall fin_bq (map (emb_bq (strict := false)) u)). { apply List.Forall_forall. intros b Hb. apply in_map_iff in Hb. destruct Hb as (a & <- & _). repeat split; eexists; reflexivity. }
  pose proof (c07 (map (emb_bq (strict := false)) u) (map emb_bq u') DF1 xs FU PU) as Q. rewrite !map_length in Q.
  assert (EMB : forall (w : list (biquad RN)) n, snd (cs_run (MkCStages (map (emb_bq (strict := false)) w) (repeat (st_init DF1) n)) (xr xs)) = map XR (snd (cs_run (MkCStages w (repeat (st_init DF1) n)) xs))).
  { intros w n. pose proof (emb_cs_run (strict := false) w xs (repeat (st_init DF1) n)) as R.
    assert (RS : map (emb_st (strict := false)) (repeat (st_init DF1) n) = repeat (st_init DF1) n) by (clear; induction n as [|n IH]; [reflexivity|]; cbn [repeat map]; f_equal; exact IH).
    rewrite RS in R. exact (f_equal snd R). }
  rewrite !EMB in Q. unfold u, u' in Q. rewrite !map_length in Q. fold u u' in Q.
  revert Q. generalize (snd (cs_run (MkCStages u (repeat (st_init (N := RN) DF1) (length bs))) xs)), (snd (cs_run (MkCStages u' (repeat (st_init (N := RN) DF1) (length bs'))) xs)). clear.
  induction l as [|a l IH]; intros [|b k] H; try discriminate H; [reflexivity|]. cbn [map] in H. injection H. intros H1 H2. f_equal; [exact H2|apply IH, H1].
Qed.
Lemma c90_order m (bs bs' : list (biquad (F64 m))) (l l' : list sect) t t' (xs : list f64) X :
  List.Forall fin_coeffs bs -> List.Forall2 sect_of bs l -> List.Forall2 sect_of bs' l' -> Permutation bs bs' -> sects_ok l X -> sects_ok l' X -> 0 <= X ->
  List.Forall (fun x => FloatSpec.is_fin x /\ Rabs (B2R x) <= X) xs ->
  let ys := snd (cs_run (MkCStages bs (repeat (st_init t) (length bs))) xs) : list f64 in let ys' := snd (cs_run (MkCStages bs' (repeat (st_init t') (length bs'))) xs) : list f64 in
  List.Forall2 (fun y y' => Rabs (B2R y - B2R y') <= total_error l X 0 + total_error l' X 0) ys ys'.
Proof.
  intros Hf H2 H2' P Hok Hok' HX Hxs ys ys'. destruct (exact_exists l (map B2R xs)) as (zs & Ex & _). pose proof (exact_perm bs bs' l l' _ _ H2 H2' P Ex) as Ex'.
  assert (Hf' : List.Forall fin_coeffs bs') by (rewrite List.Forall_forall in *; intros b Hb; apply Hf; eapply Permutation_in; [symmetry; exact P|exact Hb]).
  destruct (c54_cs m bs l t xs X zs Hf H2 Hok HX Hxs Ex) as (_ & _ & _ & A). destruct (c54_cs m bs' l' t' xs X zs Hf' H2' Hok' HX Hxs Ex') as (_ & _ & _ & B).
  exact (near3 ys ys' zs _ _ A B).
Qed.
(** ** linearity *)
Lemma back_lin al be xs ys n k : length xs = length ys -> back (lincomb al be xs ys) n k = al * back xs n k + be * back ys n k.
Proof. intros H. unfold back. destruct (Nat.leb k n); [apply lincomb_nth, H|ring]. Qed.
Lemma exact_len l : forall xs zs, exact_out l xs zs -> length zs = length xs.
Proof. induction l as [|s l IH]; intros xs zs H; simpl in H; [subst; reflexivity|]. destruct H as (us & [L _] & H). rewrite (IH _ _ H). exact L. Qed.
Lemma exact_lin al be l : forall xs us zs vs, length xs = length us -> exact_out l xs zs -> exact_out l us vs -> exact_out l (lincomb al be xs us) (lincomb al be zs vs).
Proof.
  induction l as [|s l IH]; intros xs us zs vs L H K; simpl in *; [subst; reflexivity|].
  destruct H as (p & [L1 D1] & H). destruct K as (q & [L2 D2] & K). assert (LP : length p = length q) by lia.
  exists (lincomb al be p q). split; [|apply IH; assumption]. split; [rewrite !lincomb_len by assumption; exact L1|].
  intros n Hn. rewrite lincomb_len in Hn by exact L. rewrite !back_lin by assumption. pose proof (D1 n Hn) as E1. pose proof (D2 n ltac:(lia)) as E2.
  match goal with |- ?g => match type of E1 with ?a = ?b => match type of E2 with ?c = ?e => transitivity (al * a + be * c); [ring|rewrite E1, E2; ring] end end end.
Qed.
(** ws is al x + be u up to e in every sample *)
Lemma c90_linear m (bs : list (biquad (F64 m))) (l : list sect) t (xs us ws : list f64) al be e X U W :
  List.Forall fin_coeffs bs -> List.Forall2 sect_of bs l -> sects_ok l X -> sects_ok l U -> sects_ok l W -> 0 <= X -> 0 <= U -> 0 <= W -> 0 <= e ->
  List.Forall (fun x => FloatSpec.is_fin x /\ Rabs (B2R x) <= X) xs -> List.Forall (fun x => FloatSpec.is_fin x /\ Rabs (B2R x) <= U) us -> List.Forall (fun x => FloatSpec.is_fin x /\ Rabs (B2R x) <= W) ws ->
  length us = length xs -> length ws = length xs ->
  (forall n, (n < length xs)%nat -> Rabs (B2R (nth n ws f0) - (al * B2R (nth n xs f0) + be * B2R (nth n us f0))) <= e) ->
  let run (v : list f64) := snd (cs_run (MkCStages bs (repeat (st_init t) (length bs))) v) : list f64 in
  forall n, (n < length xs)%nat -> Rabs (B2R (nth n (run ws) f0) - (al * B2R (nth n (run xs) f0) + be * B2R (nth n (run us) f0))) <=
    total_error l W e + Rabs al * total_error l X 0 + Rabs be * total_error l U 0.
Proof.
  intros Hf H2 HkX HkU HkW HX HU HW He Fx Fu Fw Lu Lw Hin run n Hn.
  destruct (exact_exists l (map B2R xs)) as (zs & Ex & _). destruct (exact_exists l (map B2R us)) as (vs & Eu & _).
  assert (LM : length (map B2R xs) = length (map B2R us)) by (rewrite !map_length; symmetry; exact Lu).
  pose proof (exact_lin al be l _ _ _ _ LM Ex Eu) as Ew.
  assert (NB : forall (a : list f64) i, nth i (map B2R a) 0 = B2R (nth i a f0)) by (intros a i; change 0 with (B2R f0); apply map_nth).
  destruct (cas_round t bs l xs X (map B2R xs) zs 0) as (_ & L1 & _ & A); auto; try lra; [apply map_length|intros i Hi; rewrite NB, Rminus_diag_eq, Rabs_R0 by reflexivity; lra|].
  destruct (cas_round t bs l us U (map B2R us) vs 0) as (_ & L2 & _ & B); auto; try lra; [apply map_length|intros i Hi; rewrite NB, Rminus_diag_eq, Rabs_R0 by reflexivity; lra|].
  destruct (cas_round t bs l ws W (lincomb al be (map B2R xs) (map B2R us)) (lincomb al be zs vs) e) as (_ & _ & _ & C); auto.
  { rewrite lincomb_len by exact LM. rewrite map_length. symmetry. exact Lw. }
  { intros i Hi. rewrite lincomb_nth, !NB by exact LM. apply Hin. rewrite <- Lw. exact Hi. }
  specialize (A n Hn). specialize (B n ltac:(rewrite Lu; exact Hn)). specialize (C n ltac:(rewrite Lw; exact Hn)). rewrite lincomb_nth in C by (rewrite L1, L2; symmetry; exact Lu).
  fold (run xs) in A. fold (run us) in B. fold (run ws) in C. revert A B C. set (p := B2R (nth n (run xs) f0)). set (q := B2R (nth n (run us) f0)). set (r := B2R (nth n (run ws) f0)). clearbody p q r.
  generalize (nth n zs 0), (nth n vs 0). intros z v A B C.
  replace (r - (al * p + be * q)) with ((r - (al * z + be * v)) + (- al * (p - z) + - be * (q - v))) by ring.
  eapply Rle_trans; [apply Rabs_triang|]. eapply Rle_trans; [apply Rplus_le_compat_l, Rabs_triang|]. rewrite !Rabs_mult, !Rabs_Ropp.
  assert (Rabs al * Rabs (p - z) <= Rabs al * total_error l X 0) by (apply Rmult_le_compat_l; [apply Rabs_pos|exact A]).
  assert (Rabs be * Rabs (q - v) <= Rabs be * total_error l U 0) by (apply Rmult_le_compat_l; [apply Rabs_pos|exact B]). lra.
Qed.
