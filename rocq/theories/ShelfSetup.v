(** Proofs: Butterworth shelves in binary64, the setup for given stored sections; the prototype as a list. *)
From Coq Require Import ZArith List Bool Reals Lra Lia Floats.SpecFloat.
From Coquelicot Require Import Coquelicot.
From Flocq Require Import Core.Raux Core.Defs Core.Generic_fmt IEEE754.BinarySingleNaN.
From Verif Require Import Num Outcome Types Biquad Cascade Transforms Butterworth Chebyshev PoleFilter Safe Float64 FloatSpec FloatProofs SampleLemmas SigSpec StabProofs
  RoundSpec RoundProofs DblPi DblSpec DblProofs DblLemmas LayoutProofs BuildProofs BuildAny BwDblSpec CplxDbl BwDbl BwDbl2 BwDbl3 BwDblLemmas SimDbl.
Import ListNotations.
Local Open Scope R_scope.

Notation fpi := (fnorm 7074237752028440 (-51)).
(** the frequency at which the response of a shelf is normalised is the other one *)
Lemma wn_sh (hs : bool) : (if hs then fsub fpi fpi else fpi) = wn (negb hs).
Proof. apply B2SF_inj. destruct hs; vm_compute; reflexivity. Qed.

Section Setup.
  Variable m : libm.
  Notation FN := (F64 m).
  Hypothesis HM : libm_design m.
  Variable q : params FN.
  Notation fc := (q_fc q : f64).
  Hypothesis Ff : is_finite fc = true.
  Hypothesis Hf : cut_ok (B2R fc).
  Variable n : nat.
  Hypothesis N1 : (1 <= n)%nat.
  Variable FO : Z.
  Hypothesis HFO : (Z.of_nat n <= FO)%Z.
  Variable hp : bool.
  Notation k := (Bw, if hp then HSh else LSh).
  Notation qpt := (cpx (T FN) * cpx (T FN))%type.
  Variable pts0 : list qpt.
  Variable sg0 : option qpt.
  Variable ex0 : list (pzpair FN).
  Variable g0 : f64.
  Variable ana : proto FN.
  Variable P : nat -> biquad FN -> Prop.
  Notation trp := (trq (N := FN) (tr m hp fc)).
  Hypothesis LP0 : length pts0 = (n / 2)%nat.
  Hypothesis LS0 : length (o1 sg0) = (if Nat.odd n then 1 else 0)%nat.
  Hypothesis HA : ana_design (N := FN) k (Z.of_nat n) q (pf_ana (pf_init k FO)) = Ok ana tt.
  Hypothesis HL : p_lay ana = blay (N := FN) pts0 sg0 FO ex0 fpi g0.
  Hypothesis HP0 : forall i x, nth_error pts0 i = Some x -> nn (N := FN) (trp x) /\ exists b, pair_bq (apr (N := FN) (trp x)) = Val b /\ P i b.
  Hypothesis HS0 : forall x, sg0 = Some x -> nn (N := FN) (trp x) /\ isreal (N := FN) (trp x) /\ exists b, pair_bq (asg (N := FN) (trp x)) = Val b /\ P (n / 2) b.

  Lemma sh_transform (a : layout FN) : dig_transform (N := FN) (snd k) q a (pf_dig (pf_init k FO)) =
    match simple_loop (N := FN) (tr m hp fc) a (lay FO [] (layout_storage (N := FN) FO) (fofZ 0) (fofZ 1)) with
    | Ok l _ => Ok (lay_setNormal (N := FN) (if hp then fsub (fnorm 7074237752028440 (-51)) (l_normalW a) else l_normalW a) (l_normalGain a) l) tt
    | Throw e l => Throw e l | UB => UB end.
  Proof.
    unfold dig_transform. destruct hp; cbn [snd]; [unfold HighPassTransform|unfold LowPassTransform]; unfold bind at 1; rewrite (check_ok m q Ff Hf n N1); reflexivity.
  Qed.
  Lemma shelf_setup_any : exists p bs r, setupN (N := FN) k FO (Some (Z.of_nat n)) q (pf_init k FO) = Ok p tt /\ length bs = bw_sections n /\
    (forall i b, nth_error bs i = Some b -> P i b) /\
    let all := bs ++ repeat idb (Z.to_nat (maxStagesOf (snd k) FO) - length bs) in
    cas_response (N := FN) (MkCascade (Z.of_nat (length bs)) (maxStagesOf (snd k) FO) all) (fn (negb hp)) = Val r /\
    pf_cas p = MkCascade (Z.of_nat (length bs)) (maxStagesOf (snd k) FO) (scale_head (N := FN) (fdiv g0 (ncabs FN r)) all).
  Proof.
    pose proof (half_up n) as HU.
    assert (SL : forall M, (Z.of_nat n <= M)%Z -> (length pts0 + length (o1 sg0) <= length (layout_storage (N := FN) M))%nat).
    { intros M HMx. unfold layout_storage. rewrite repeat_length, LP0, LS0, <- HU. rewrite Z.quot_div_nonneg by lia.
      rewrite <- (Nat2Z.id ((n + 1) / 2)). apply Z2Nat.inj_le; try apply Z.div_pos; try lia. rewrite Nat2Z.inj_div, Nat2Z.inj_add. apply Z.div_le_mono; lia. }
    assert (MD : maxDigital (snd k) FO = FO) by (destruct hp; reflexivity).
    set (pts := map trp pts0). set (sg := option_map trp sg0).
    assert (PT : forall i x, nth_error pts i = Some x -> exists c, nth_error pts0 i = Some c /\ x = trp c).
    { intros i x E. unfold pts in E. rewrite nth_error_map in E. destruct (nth_error pts0 i) as [c|]; [|discriminate]. exists c. split; [reflexivity|]. inversion E. reflexivity. }
    assert (SG : forall x, sg = Some x -> exists c, sg0 = Some c /\ x = trp c).
    { intros x E. unfold sg in E. destruct sg0 as [c|]; [|discriminate]. exists c. split; [reflexivity|]. inversion E. reflexivity. }
    set (ex := skipn (length pts0 + length (o1 sg0)) (layout_storage (N := FN) FO)).
    assert (HD : dig_transform (N := FN) (snd k) q (p_lay ana) (pf_dig (pf_init k FO)) = Ok (blay (N := FN) pts sg (maxDigital (snd k) FO) ex (wn (negb hp)) g0) tt).
    { rewrite sh_transform, HL. rewrite simple_loop_any.
      - rewrite MD, <- (wn_sh hp). destruct hp; reflexivity.
      - reflexivity.
      - rewrite map_app. apply Forall_app. split.
        + apply List.Forall_forall. intros x Ix. fold pts in Ix. apply In_nth_error in Ix. destruct Ix as [i Ei]. destruct (PT i x Ei) as (c & Ec & ->). apply (HP0 i c Ec).
        + rewrite <- o1_map. fold sg. destruct sg as [x|] eqn:E; constructor; [|constructor]. destruct (SG x eq_refl) as (c & Ec & ->). apply (HS0 c Ec).
      - rewrite <- o1_map. fold sg. destruct sg as [x|] eqn:E; constructor; [|constructor]. destruct (SG x eq_refl) as (c & Ec & ->). apply (HS0 c Ec).
      - apply SL. exact HFO. }
    assert (LP' : length pts = (n / 2)%nat) by (unfold pts; rewrite map_length; exact LP0).
    assert (LSg : length (o1 sg) = (if Nat.odd n then 1 else 0)%nat) by (unfold sg; rewrite o1_map, map_length; exact LS0).
    set (prs := map (apr (N := FN)) pts ++ map (asg (N := FN)) (o1 sg)).
    assert (LPR : length prs = bw_sections n) by (unfold prs, bw_sections; rewrite app_length, !map_length, LP', LSg, HU; reflexivity).
    destruct (list_of (bw_sections n) (fun i b => forall p, nth_error prs i = Some p -> pair_bq p = Val b /\ P i b)) as (bs & LB & HB).
    { intros i Hi. assert (ND : nth_error prs i <> None) by (apply nth_error_Some; rewrite LPR; exact Hi).
      destruct (nth_error prs i) as [p|] eqn:E; [|elim ND; reflexivity]. clear ND. unfold prs in E.
      destruct (Nat.lt_ge_cases i (n / 2)) as [L|L].
      - rewrite nth_error_app1 in E by (rewrite map_length, LP'; exact L). rewrite nth_error_map in E. destruct (nth_error pts i) as [x|] eqn:Ex; [|discriminate].
        destruct (PT i x Ex) as (c & Ec & ->). destruct (HP0 i c Ec) as (_ & b & B1 & B2). exists b. intros p' Ep. inversion Ep; subst p'. inversion E; subst p. split; assumption.
      - rewrite nth_error_app2 in E by (rewrite map_length, LP'; exact L). rewrite map_length, LP', nth_error_map in E.
        destruct sg as [x|] eqn:Es; cbn [o1] in E; [|destruct (i - n / 2)%nat; discriminate]. destruct (i - n / 2)%nat as [|j] eqn:Ej; [|destruct j; discriminate].
        cbn [nth_error option_map] in E. destruct (SG x eq_refl) as (c & Ec & ->). destruct (HS0 c Ec) as (_ & _ & b & B1 & B2). exists b. intros p' Ep. inversion Ep; subst p'. inversion E; subst p.
        replace i with (n / 2)%nat by lia. split; assumption. }
    assert (F2 : Forall2 (fun p b => pair_bq p = Val b) prs bs).
    { apply F2_nth; [congruence|]. intros i p b Ep Eb. apply (HB i b Eb p Ep). }
    assert (SO : forall i b, nth_error bs i = Some b -> P i b).
    { intros i b Eb. assert (ND : nth_error prs i <> None) by (apply nth_error_Some; rewrite LPR, <- LB; apply nth_error_Some; congruence).
      destruct (nth_error prs i) as [p|] eqn:Ep; [|elim ND; reflexivity]. apply (HB i b Eb p Ep). }
    assert (BP : (0 < length bs)%nat). { rewrite LB. unfold bw_sections. rewrite HU. destruct n as [|[|n']]; [lia|cbn; lia|]. pose proof (Nat.div_le_mono 2 (S (S n')) 2 ltac:(lia) ltac:(lia)). change (2 / 2)%nat with 1%nat in *. lia. }
    assert (BM : (Z.of_nat (length bs) <= maxStagesOf (snd k) FO)%Z).
    { unfold maxStagesOf. rewrite MD, LB. unfold bw_sections. rewrite Z.quot_div_nonneg by lia. rewrite Nat2Z.inj_div, Nat2Z.inj_add. apply Z.div_le_mono; lia. }
    destruct (response_ok m HM n N1 (negb hp) (MkCascade (N := FN) (Z.of_nat (length bs)) (maxStagesOf (snd k) FO) (bs ++ repeat idb (Z.to_nat (maxStagesOf (snd k) FO) - length bs)))) as [r Hr].
    { cbn [c_numStages c_stages]. rewrite app_length. lia. }
    destruct (setup_any (N := FN) k FO (Z.of_nat n) q ana pts sg ex (wn (negb hp)) g0 bs r HFO eq_refl eq_refl HA HD F2 BP BM Hr) as (p & P1 & P2).
    exists p, bs, r. split; [exact P1|]. split; [exact LB|]. split; [exact SO|]. split; [exact Hr|exact P2].
  Qed.
End Setup.


Section Lists.
  Local Open Scope Z_scope.
  Context {N : num}.
  Notation Cn := (cpx (T N)).
  Definition sh_gf (n : nat) (ga : T N) : T N := npow N (npow N (nofZ N 10) (ndiv N ga (nofZ N 20))) (ndiv N (nofZ N 1) (nofZ N (Z.of_nat n * 2))).
  Definition sh_gp (n : nat) (ga : T N) : T N := ndiv N (nofZ N (-1)) (sh_gf n ga).
  Definition sh_gz (n : nat) (ga : T N) : T N := nopp N (sh_gf n ga).
  Definition sh_th (n i : nat) : T N := nmul N (npi N) (nsub N (nlit N 1 2) (ndiv N (nofZ N (2 * (Z.of_nat i + 1) - 1)) (nofZ N (Z.of_nat n * 2)))).
  Definition sh_sg (n : nat) (ga : T N) : option (Cn * Cn) := if Nat.odd n then Some (c_of (sh_gp n ga), c_of (sh_gz n ga)) else None.
  Lemma ls_design_any n ga np0 ga0 db np1 mp (storage : list (pzpair N)) w g (cs : list (Cn * Cn)) :
    neqb N n0 n0 = true -> List.Forall nn (cs ++ o1 (sh_sg n ga)) ->
    np0 <> Z.of_nat n -> in_int (Z.of_nat n * 2) = true ->
    length cs = (n / 2)%nat -> (forall i c, nth_error cs i = Some c -> npolar N (sh_gp n ga) (sh_th n i) = Some (fst c) /\ npolar N (sh_gz n ga) (sh_th n i) = Some (snd c)) ->
    (length cs + length (o1 (sh_sg n ga)) <= length storage)%nat ->
    bw_ls_design (Z.of_nat n) ga (MkProto np0 ga0 db (MkLayout np1 mp storage w g)) =
    Ok (MkProto (Z.of_nat n) ga db (blay cs (sh_sg n ga) mp (skipn (length cs + length (o1 (sh_sg n ga))) storage) w g)) tt.
  Proof.
    intros H0 NC H I LC CS L. unfold bw_ls_design. unfold bind at 1, get. cbn [p_np p_gain].
    replace (np0 =? Z.of_nat n) with false by (symmetry; apply Z.eqb_neq; exact H). cbn [negb orb].
    unfold bind at 1, modify at 1. cbn [p_gain p_db p_lay]. unfold bind at 1. unfold on_lay at 1, zoom, modify.
    unfold int_ub. rewrite I. cbn [or_ub]. unfold bind at 1, ret at 1. unfold on_lay, zoom, p_set_lay. cbn [p_lay p_np p_gain p_db].
    unfold bw_ls_poles. rewrite quot_nat2, odd_nat2, <- LC.
    replace (Nat.odd n) with (match sh_sg n ga with Some _ => true | None => false end) by (unfold sh_sg; destruct (Nat.odd n); reflexivity).
    change (lay_reset (MkLayout np1 mp storage w g)) with (lay mp [] storage w g).
    rewrite push_all.
    - reflexivity.
    - exact H0.
    - intros i q l E. destruct (CS i q E) as [C1 C2]. unfold sh_gp, sh_gz, sh_th, sh_gf in C1, C2. unfold bind. rewrite C1. cbn [or_ub]. unfold ret. rewrite C2. reflexivity.
    - intros q l E. unfold sh_sg in E. destruct (Nat.odd n); inversion E. reflexivity.
    - exact NC.
    - unfold sh_sg. destruct (Nat.odd n); constructor; [|constructor]. split; exact H0.
    - exact L.
  Qed.
End Lists.
