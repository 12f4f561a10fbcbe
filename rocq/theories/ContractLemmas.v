(** Lemmas: cascades under contraction. *)
From Coq Require Import ZArith List Bool Reals Lra Lia Floats.SpecFloat.
From Coquelicot Require Import Coquelicot.
From Flocq Require Import IEEE754.BinarySingleNaN.
From Verif Require Import Num Outcome Types Biquad State Cascade PoleFilter History RealNum Float64 RefLibm FloatSpec Stream
  SigSpec SigProofs StabProofs RoundSpec RoundProofs RoundRun RoundLemmas DblSpec DblProofs DblLemmas BwDblSpec ChainSpec ChainLemmas BwOut TinyCutoff AnyLemmas Safe Contract ContractProofs.
Import ListNotations.
Local Open Scope R_scope.

Section L.
  Context {m : libm}.
  Notation FN := (F64 m).

  (** ** the model without contraction is one of the possible runs *)
  Lemma c_plain (b : biquad FN) (s : st FN) (x : f64) : c_filter b s x (fst (st_filter s b (x : T FN))) (snd (st_filter s b (x : T FN)) : f64).
  Proof.
    destruct s as [x1 x2 y1 y2|v1 v2|s1 s1_1 s2 s2_1]; cbn [st_filter fst snd].
    - apply c_df1. repeat constructor.
    - apply c_df2; repeat constructor.
    - apply c_tdf2; repeat constructor.
  Qed.
  Lemma c_plain_loop (bs : list (biquad FN)) : forall (ss : list (st FN)) (x : f64), length ss = length bs ->
    c_loop bs ss x (fst (cs_loop bs ss (x : T FN))) (snd (cs_loop bs ss (x : T FN)) : f64).
  Proof.
    induction bs as [|b bs IH]; intros [|s ss] x L; try discriminate; [constructor|]. cbn [cs_loop].
    pose proof (c_plain b s x) as P. destruct (st_filter s b x) as [s' y]. cbn [fst snd] in P.
    specialize (IH ss y ltac:(cbn in L; lia)). destruct (cs_loop bs ss y) as [ss' z]. cbn [fst snd] in *. econstructor; eassumption.
  Qed.
  Lemma c_loop_len (bs : list (biquad FN)) ss x ss' y : c_loop bs ss x ss' y -> length ss = length bs /\ length ss' = length bs.
  Proof. induction 1; cbn; lia. Qed.
  Lemma c_plain_run (bs : list (biquad FN)) (xs : list f64) : forall ss, length ss = length bs ->
    c_run bs ss xs (snd (cs_run (MkCStages bs ss) (xs : list (T FN))) : list f64).
  Proof.
    induction xs as [|x xs IH]; intros ss L; [constructor|]. cbn [cs_run]. unfold cs_filter. cbn [cs_stages cs_states].
    pose proof (c_plain_loop bs ss x L) as P. destruct (cs_loop bs ss x) as [ss' y] eqn:E. cbn [fst snd] in P.
    specialize (IH ss' (proj2 (c_loop_len _ _ _ _ _ P))). destruct (cs_run (MkCStages bs ss') xs) as [c'' ys]. cbn [snd] in *. econstructor; eassumption.
  Qed.

  (** ** one section at a time *)
  Inductive c_brun (b : biquad FN) : st FN -> list f64 -> list f64 -> Prop :=
  | cb_nil s : c_brun b s [] []
  | cb_cons s x xs s' y ys : c_filter b s x s' y -> c_brun b s' xs ys -> c_brun b s (x :: xs) (y :: ys).
  Lemma c_split (b : biquad FN) bs s ss xs ys : c_run (b :: bs) (s :: ss) xs ys -> exists us, c_brun b s xs us /\ c_run bs ss us ys.
  Proof.
    intros H. remember (s :: ss) as l eqn:El. revert s ss El. induction H as [l|l x xs l' y ys L R IH]; intros s ss El; subst l.
    - exists []. split; constructor.
    - inversion L; subst. destruct (IH _ _ eq_refl) as (us & A & B). eexists. split; econstructor; eassumption.
  Qed.
  Lemma c_none ss xs ys : c_run (m := m) [] ss xs ys -> ys = xs.
  Proof. induction 1 as [|? ? ? ? ? ? L R IH]; [reflexivity|]. inversion L; subst. reflexivity. Qed.
  Lemma c_blen (b : biquad FN) s xs ys : c_brun b s xs ys -> length ys = length xs.
  Proof. induction 1; cbn; lia. Qed.
  (** a finite run continues for ever with zero input *)
  Lemma c_forever (b : biquad FN) s xs ys : c_brun b s xs ys -> exists (ss : nat -> st FN) (y : nat -> f64),
    ss 0%nat = s /\ (forall n, c_filter b (ss n) (fsq xs n) (ss (S n)) (y n)) /\ (forall n, (n < length xs)%nat -> nth n ys f0 = y n).
  Proof.
    induction 1 as [s|s x xs s' y ys F R (ss & yy & E0 & Hr & Hy)].
    - set (stp := fun (s : st FN) (v : f64) => st_filter s b (v : T FN)). exists (sst stp s (fun _ => f0)), (sout stp s (fun _ => f0)).
      split; [reflexivity|]. split; [|cbn; lia]. intros n. replace (fsq [] n) with f0 by (unfold fsq; destruct n; reflexivity). apply (c_plain b).
    - exists (fun n => match n with O => s | S k => ss k end), (fun n => match n with O => y | S k => yy k end).
      split; [reflexivity|]. split.
      + intros [|n]; [rewrite E0; exact F|apply Hr].
      + intros [|n] L; [reflexivity|]. cbn in *. apply Hy. lia.
  Qed.

  Lemma cstage_round (b : biquad FN) s t (xs ys : list f64) X us zs e :
    fin_coeffs b -> sect_of b s -> sect_ok s X -> 0 <= X -> 0 <= e ->
    List.Forall (okf X) xs -> length us = length xs ->
    (forall n, (n < length xs)%nat -> Rabs (B2R (nth n xs f0) - nth n us 0) <= e) ->
    diffeq 1 (s_a1 s) (s_a2 s) (s_b0 s) (s_b1 s) (s_b2 s) us zs ->
    c_brun b (st_init t) xs ys ->
    length ys = length xs /\ length zs = length xs /\ List.Forall (okf (out_bound s X)) ys /\
    forall n, (n < length xs)%nat -> Rabs (B2R (nth n ys f0) - nth n zs 0) <= s_G s * s_B s * e + own_error s X.
  Proof.
    intros Hf (Ea1 & Ea2 & Eb0 & Eb1 & Eb2) (Hg & H1 & H2 & H3) HX He Hxs Hlu Hin Hd HR.
    destruct (diffeq_fir _ _ _ _ _ _ _ Hd) as [Lz Fz].
    assert (Hx : forall n, okf X (fsq xs n)).
    { intros n. unfold fsq. destruct (Nat.lt_ge_cases n (length xs)) as [L|L].
      - apply (proj1 (List.Forall_forall _ _) Hxs), nth_In, L.
      - rewrite nth_overflow by exact L. apply okf_0, HX. }
    set (rb := @MkBiquad RN 1 (s_a1 s) (s_a2 s) (s_b0 s) (s_b1 s) (s_b2 s)).
    set (z := flt rb (re (fsq xs))).
    assert (Hz : forall n, fir 1 (s_a1 s) (s_a2 s) z n = fir (s_b0 s) (s_b1 s) (s_b2 s) (re (fsq xs)) n) by (intros n; apply (flt_eq rb)).
    assert (Ly : length ys = length xs) by (eapply c_blen; eassumption).
    destruct (c_forever b _ xs ys HR) as (ss & y & E0 & Hr & Hy).
    assert (HS : forall n, okf (out_bound s X) (y n) /\ Rabs (re y n - z n) <= own_error s X).
    { intros n. unfold out_bound, own_error, s_A, s_B in *. rewrite Ea1, Ea2, Eb0, Eb1, Eb2 in *.
      apply (cstage_all b (fsq xs) (s_G s) X Hf Hg Hx H1 H2 H3 z Hz ss y Hr t n E0). }
    split; [exact Ly|]. split; [lia|]. split.
    - apply List.Forall_forall. intros v Hv. destruct (In_nth _ _ f0 Hv) as (n & Hn & <-). rewrite Hy by lia. apply HS.
    - intros n Hn. rewrite Hy by exact Hn. destruct (HS n) as [_ E].
      assert (Q : Rabs (z n - seqof zs n) <= s_G s * (s_B s * e)).
      { apply (gain_fir _ _ _ Hg (fun k => z k - seqof zs k)).
        - apply Rmult_le_pos; [|exact He]. unfold s_B. pose proof (Rabs_pos (s_b0 s)). pose proof (Rabs_pos (s_b1 s)). pose proof (Rabs_pos (s_b2 s)). lra.
        - intros i Hi. rewrite fir_sub, Hz, Fz by lia. rewrite <- fir_sub. apply fir_bd; [exact He|]. intros j Hj. apply Hin. lia. }
      unfold seqof in Q. unfold re in E. revert E Q. generalize (B2R (y n)). intros v E Q.
      pose proof (Rabs_triang (v - z n) (z n - nth n zs 0)) as TR. replace (v - z n + (z n - nth n zs 0)) with (v - nth n zs 0) in TR by ring. lra.
  Qed.

  Lemma ccas_round t (bs : list (biquad FN)) : forall l (xs ys : list f64) X us zs e,
    List.Forall fin_coeffs bs -> List.Forall2 sect_of bs l -> sects_ok l X -> 0 <= X -> 0 <= e ->
    List.Forall (okf X) xs -> length us = length xs ->
    (forall n, (n < length xs)%nat -> Rabs (B2R (nth n xs f0) - nth n us 0) <= e) ->
    exact_out l us zs -> c_run bs (repeat (st_init t) (length bs)) xs ys ->
    length ys = length xs /\ length zs = length xs /\ List.Forall (okf (last_bound l X)) ys /\
    forall n, (n < length xs)%nat -> Rabs (B2R (nth n ys f0) - nth n zs 0) <= total_error l X e.
  Proof.
    induction bs as [|b bs IH]; intros l xs ys X us zs e Hf H2 Hok HX He Hxs Hl Hin Hex HR; inversion H2; subst; simpl in *.
    - subst zs. apply c_none in HR. subst ys. auto.
    - destruct Hex as (vs & Hd & Hex). destruct Hok as [Hs Hok]. inversion Hf; subst.
      apply c_split in HR as (ws & RB & RR).
      destruct (cstage_round b y t xs ws X us vs e) as (L1 & L2 & O & E); try assumption.
      destruct (own_error_pos y X Hs HX) as (P1 & P2 & P3).
      destruct (IH l' ws ys (out_bound y X) vs zs (s_G y * s_B y * e + own_error y X)) as (Q1 & Q2 & Q3 & Q4); try assumption.
      + apply Rplus_le_le_0_compat; [apply Rmult_le_pos; assumption|assumption].
      + rewrite L1. exact L2.
      + intros n Hn. apply E. rewrite <- L1. exact Hn.
      + rewrite L1 in Q1, Q2, Q4. split; [exact Q1|]. split; [exact Q2|]. split; [exact Q3|exact Q4].
  Qed.
  Lemma F2_of_nth (ys : list f64) (zs : list R) d : length ys = length zs ->
    (forall n, (n < length ys)%nat -> Rabs (B2R (nth n ys f0) - nth n zs 0) <= d) -> List.Forall2 (fun y z => Rabs (B2R y - z) <= d) ys zs.
  Proof.
    revert zs. induction ys as [|y ys IH]; intros [|z zs] L E; try discriminate; constructor.
    - apply (E O). simpl. lia.
    - apply IH; [simpl in L; lia|]. intros n Hn. apply (E (S n)). simpl. lia.
  Qed.
  Lemma in_map (xs : list f64) n : (n < length xs)%nat -> Rabs (B2R (nth n xs f0) - nth n (map B2R xs) 0) <= 0.
  Proof. intros Hn. rewrite (nth_indep _ 0 (B2R f0)) by (rewrite map_length; exact Hn). rewrite map_nth, Rminus_diag_eq, Rabs_R0 by reflexivity. lra. Qed.

  Lemma c68 (bs : list (biquad FN)) (l : list sect) t (xs ys : list f64) X zs :
    List.Forall fin_coeffs bs -> List.Forall2 sect_of bs l -> sects_ok l X ->
    0 <= X -> List.Forall (fun x => FloatSpec.is_fin x /\ Rabs (B2R x) <= X) xs -> exact_out l (map B2R xs) zs ->
    c_run bs (repeat (st_init t) (length bs)) xs ys ->
    length ys = length xs /\ length zs = length xs /\
    List.Forall (fun y => FloatSpec.is_fin y /\ Rabs (B2R y) <= last_bound l X) ys /\
    List.Forall2 (fun y z => Rabs (B2R y - z) <= total_error l X 0) ys zs.
  Proof.
    intros Hf H2 Hok HX Hxs Hex HR.
    destruct (ccas_round t bs l xs ys X (map B2R xs) zs 0) as (L1 & L2 & O & E); auto using in_map; try lra; try apply map_length.
    split; [exact L1|]. split; [exact L2|]. split; [exact O|]. apply F2_of_nth; [lia|]. rewrite L1. exact E.
  Qed.

  (** ** stored coefficients near ideal ones *)

  (** the exact outputs with the stored and with the ideal coefficients *)
  Lemma exact_near (b : biquad FN) d (xs : list f64) X us zs vs e :
    stored_near b d -> d_ok d X -> 0 <= X -> 0 <= e ->
    List.Forall (okf X) xs -> length us = length xs ->
    (forall n, (n < length xs)%nat -> Rabs (B2R (nth n xs f0) - nth n us 0) <= e) ->
    diffeq 1 (i_a1 (d_id d)) (i_a2 (d_id d)) (i_b0 (d_id d)) (i_b1 (d_id d)) (i_b2 (d_id d)) us zs ->
    diffeq 1 (B2R (m_a1 b : f64)) (B2R (m_a2 b : f64)) (B2R (m_b0 b : f64)) (B2R (m_b1 b : f64)) (B2R (m_b2 b : f64)) (map B2R xs) vs ->
    forall n, (n < length xs)%nat -> Rabs (nth n vs 0 - nth n zs 0) <= d_G d * i_B (d_id d) * e + d_G d * (3 * d_eb d * X + 4 * d_ea d * d_G d * d_B d * X).
  Proof.
    intros HN Hok HX He Hxs Hl Hin Hd V n Hn. destruct (d_facts b d X HN Hok HX) as (OK & G1 & E0 & F0 & B0 & SB & SB0 & _).
    destruct HN as (N1 & N2 & N3 & N4 & N5). destruct Hok as (HG & _).
    assert (MN : forall n, (n < length xs)%nat -> nth n (map B2R xs) 0 = B2R (nth n xs f0)).
    { intros k Hk. rewrite (nth_indep _ 0 (B2R f0)) by (rewrite map_length; exact Hk). apply map_nth. }
    destruct (diffeq_fir _ _ _ _ _ _ _ Hd) as [Lz Fz]. destruct (diffeq_fir _ _ _ _ _ _ _ V) as [Lv Fv]. rewrite map_length in Lv, Fv. change (@length (binary_float 53 1024) xs) with (@length f64 xs) in Lv, Fv.
    set (rb := @MkBiquad RN 1 (i_a1 (d_id d)) (i_a2 (d_id d)) (i_b0 (d_id d)) (i_b1 (d_id d)) (i_b2 (d_id d))). set (x := seqof (map B2R xs)). set (w := flt rb x).
    assert (Hw : forall k, fir 1 (i_a1 (d_id d)) (i_a2 (d_id d)) w k = fir (i_b0 (d_id d)) (i_b1 (d_id d)) (i_b2 (d_id d)) x k) by (intros k; apply (flt_eq rb)).
    assert (Hx : forall k, (k <= n)%nat -> Rabs (x k) <= X).
    { intros k Hk. unfold x, seqof. rewrite MN by lia. apply (proj1 (List.Forall_forall _ _) Hxs), nth_In. lia. }
    destruct OK as (SGn & _).
    assert (P1 : 0 <= d_B d * X) by (apply Rmult_le_pos; lra).
    assert (Hv : forall k, (k <= n)%nat -> Rabs (seqof vs k) <= 2 * d_G d * (d_B d * X)).
    { intros k Hk. apply (gain_fir _ _ _ SGn (seqof vs)); [exact P1|]. intros i Hi. cbn [s_a1 s_a2 ssec]. rewrite Fv by lia. eapply Rle_trans; [apply (fir_bd _ _ _ _ X); [exact HX|]|].
      - intros j Hj. apply Hx. lia.
      - apply Rmult_le_compat_r; [exact HX|]. exact SB. }
    pose proof (coefs_apart2 _ _ _ _ _ _ _ _ _ _ (d_G d) (d_ea d) (d_eb d) x (seqof vs) w X (2 * d_G d * (d_B d * X)) n HG HX ltac:(apply Rmult_le_pos; lra) N1 N2 N3 N4 N5 Hx Hv
      (fun i _ => Hw i) (fun i Hi => Fv i ltac:(lia))) as AP.
    assert (Q : Rabs (w n - seqof zs n) <= d_G d * (i_B (d_id d) * e)).
    { apply (gain_fir _ _ _ HG (fun k => w k - seqof zs k)); [apply Rmult_le_pos; assumption|].
      intros i Hi. rewrite fir_sub, Hw, Fz by lia. rewrite <- fir_sub. apply fir_bd; [exact He|]. intros j Hj. unfold x, seqof. rewrite MN by lia. apply Hin. lia. }
    unfold seqof in Q, AP.
    replace (d_G d * (3 * d_eb d * X + 2 * d_ea d * (2 * d_G d * (d_B d * X)))) with (d_G d * (3 * d_eb d * X + 4 * d_ea d * d_G d * d_B d * X)) in AP by ring.
    replace (nth n vs 0 - nth n zs 0) with ((nth n vs 0 - w n) + (w n - nth n zs 0)) by ring.
    eapply Rle_trans; [apply Rabs_triang|]. lra.
  Qed.
  Lemma cdstage (b : biquad FN) d t (xs ys : list f64) X us zs e :
    fin_coeffs b -> stored_near b d -> d_ok d X -> 0 <= X -> 0 <= e ->
    List.Forall (okf X) xs -> length us = length xs ->
    (forall n, (n < length xs)%nat -> Rabs (B2R (nth n xs f0) - nth n us 0) <= e) ->
    diffeq 1 (i_a1 (d_id d)) (i_a2 (d_id d)) (i_b0 (d_id d)) (i_b1 (d_id d)) (i_b2 (d_id d)) us zs ->
    c_brun b (st_init t) xs ys ->
    length ys = length xs /\ length zs = length xs /\ List.Forall (okf (d_out d X)) ys /\
    forall n, (n < length xs)%nat -> Rabs (B2R (nth n ys f0) - nth n zs 0) <= d_G d * i_B (d_id d) * e + d_err d X.
  Proof.
    intros Hf HN Hok HX He Hxs Hl Hin Hd HR. destruct (d_facts b d X HN Hok HX) as (OK & G1 & E0 & F0 & B0 & SB & SB0 & OE & OB).
    destruct (diffeq_exists (B2R (m_a1 b : f64)) (B2R (m_a2 b : f64)) (B2R (m_b0 b : f64)) (B2R (m_b1 b : f64)) (B2R (m_b2 b : f64)) (map B2R xs)) as (vs & V & _).
    (* the contracted outputs against the exact ones with the stored coefficients, these against the ideal ones *)
    destruct (cstage_round b (ssec b (2 * d_G d)) t xs ys X (map B2R xs) vs 0) as (L1 & L2 & O & E); try assumption; try lra; try apply map_length; auto using in_map.
    { repeat split. }
    destruct (dstage b d t xs X us zs e Hf HN Hok HX He Hxs Hl Hin Hd) as (_ & L3 & _ & _).
    split; [exact L1|]. split; [exact L3|]. split. { eapply List.Forall_impl; [|exact O]. intros y [Y1 Y2]. split; [exact Y1|]. eapply Rle_trans; [exact Y2|exact OB]. }
    intros n Hn. specialize (E n Hn). rewrite Rmult_0_r, Rplus_0_l in E.
    pose proof (exact_near b d xs X us zs vs e HN Hok HX He Hxs Hl Hin Hd V n Hn) as Q. unfold d_err.
    replace (B2R (nth n ys f0) - nth n zs 0) with ((B2R (nth n ys f0) - nth n vs 0) + (nth n vs 0 - nth n zs 0)) by ring.
    eapply Rle_trans; [apply Rabs_triang|]. lra.
  Qed.
  Lemma cchain_round t (bs : list (biquad FN)) : forall l (xs ys : list f64) X us zs e,
    List.Forall fin_coeffs bs -> List.Forall2 stored_near bs l -> chain_ok l X -> 0 <= X -> 0 <= e ->
    List.Forall (okf X) xs -> length us = length xs ->
    (forall n, (n < length xs)%nat -> Rabs (B2R (nth n xs f0) - nth n us 0) <= e) ->
    ideal_out (map d_id l) us zs -> c_run bs (repeat (st_init t) (length bs)) xs ys ->
    length ys = length xs /\ length zs = length xs /\ List.Forall (okf (chain_bound l X)) ys /\
    forall n, (n < length xs)%nat -> Rabs (B2R (nth n ys f0) - nth n zs 0) <= chain_error l X e.
  Proof.
    induction bs as [|b bs IH]; intros l xs ys X us zs e Hf H2 Hok HX He Hxs Hl Hin Hex HR; inversion H2; subst; simpl in *.
    - subst zs. apply c_none in HR. subst ys. auto.
    - destruct Hex as (vs & Hd & Hex). destruct Hok as [Hs Hok]. inversion Hf; subst.
      apply c_split in HR as (ws & RB & RR).
      destruct (cdstage b y t xs ws X us vs e) as (L1 & L2 & O & E); try assumption.
      destruct (d_facts b y X ltac:(assumption) Hs HX) as (_ & _ & E0 & F0 & _). destruct (d_pos y X Hs E0 F0 HX) as (P1 & P2 & P3).
      destruct (IH l' ws ys (d_out y X) vs zs (d_G y * i_B (d_id y) * e + d_err y X)) as (Q1 & Q2 & Q3 & Q4); try assumption.
      + apply Rplus_le_le_0_compat; [apply Rmult_le_pos; assumption|assumption].
      + rewrite L1. exact L2.
      + intros n Hn. apply E. rewrite <- L1. exact Hn.
      + rewrite L1 in Q1, Q2, Q4. split; [exact Q1|]. split; [exact Q2|]. split; [exact Q3|exact Q4].
  Qed.
  Lemma c68_ideal (bs : list (biquad FN)) (l : list dsect) t (xs ys : list f64) X zs :
    List.Forall fin_coeffs bs -> List.Forall2 stored_near bs l -> chain_ok l X ->
    0 <= X -> List.Forall (fun x => FloatSpec.is_fin x /\ Rabs (B2R x) <= X) xs -> ideal_out (map d_id l) (map B2R xs) zs ->
    c_run bs (repeat (st_init t) (length bs)) xs ys ->
    length ys = length xs /\ length zs = length xs /\
    List.Forall (fun y => FloatSpec.is_fin y /\ Rabs (B2R y) <= chain_bound l X) ys /\
    List.Forall2 (fun y z => Rabs (B2R y - z) <= chain_error l X 0) ys zs.
  Proof.
    intros Hf H2 Hok HX Hxs Hex HR.
    destruct (cchain_round t bs l xs ys X (map B2R xs) zs 0) as (L1 & L2 & O & E); auto using in_map; try lra; try apply map_length.
    split; [exact L1|]. split; [exact L2|]. split; [exact O|]. apply F2_of_nth; [lia|]. rewrite L1. exact E.
  Qed.
End L.

Lemma c68_filt m : (forall r th, npolar (F64 m) r th <> None) -> forall t k FO (f : filt (F64 m)) (l : list sect) (xs ys : list f64) X zs,
  (1 <= FO)%Z -> in_int (2 * FO) = true -> reachable_ok t k FO f ->
  List.Forall fin_coeffs (fl_stages f) -> List.Forall2 sect_of (fl_stages f) l -> sects_ok l X ->
  0 <= X -> List.Forall (fun x => FloatSpec.is_fin x /\ Rabs (B2R x) <= X) xs -> exact_out l (map B2R xs) zs ->
  c_run (fl_stages f) (fl_states (filt_reset f)) xs ys ->
  length ys = length xs /\ length zs = length xs /\
  List.Forall (fun y => FloatSpec.is_fin y /\ Rabs (B2R y) <= last_bound l X) ys /\
  List.Forall2 (fun y z => Rabs (B2R y - z) <= total_error l X 0) ys zs.
Proof.
  intros HP t k FO f l xs ys X zs HF HI R Hf H2 Hok HX Hxs Hex HR. pose proof (reach_filt_ok HP t k FO HF HI f R) as (P & L & T).
  unfold filt_reset in HR. cbn [fl_states] in HR. rewrite (reset_states_init t) in HR by exact T.
  replace (length (fl_states f)) with (length (fl_stages f)) in HR. { eapply c68; eassumption. }
  destruct P as (P & _). unfold cas_ok in P. destruct P as (P1 & P2 & _). unfold fl_stages. apply Nat2Z.inj. lia.
Qed.
(** under any contraction every filter run exists *)
Lemma c68_filt_plain m : (forall r th, npolar (F64 m) r th <> None) -> forall t k FO (f : filt (F64 m)) (xs : list f64),
  (1 <= FO)%Z -> in_int (2 * FO) = true -> reachable_ok t k FO f ->
  c_run (fl_stages f) (fl_states f) xs (snd (filt_run f (xs : list (T (F64 m)))) : list f64).
Proof.
  intros HP t k FO f xs HF HI R. pose proof (reach_filt_ok HP t k FO HF HI f R) as (P & L & T).
  rewrite filt_run_snd. unfold fl_cs. apply c_plain_run. destruct P as (P & _). unfold cas_ok in P. destruct P as (P1 & P2 & _). unfold fl_stages. apply Nat2Z.inj. lia.
Qed.

(** ** an example: (1 + 2^-30) x[n] - x[n-1] for the input 1, 1 - 2^-30 *)
Definition ex_c : biquad D :=
  @MkBiquad D (fofZ 1) (fofZ 0) (fofZ 0) (fadd (fofZ 1) (fnorm 1 (-30))) (fofZ (-1)) (fofZ 0).
Definition ex_cx : list f64 := [fofZ 1; fsub (fofZ 1) (fnorm 1 (-30))].
Definition ex_cs : sect := Sect 0 0 (1 + / 2 ^ 30) (-1) 0 1.
Lemma ex_c_vals : fin_coeffs ex_c /\ sect_of ex_c ex_cs /\ List.Forall (fun x => FloatSpec.is_fin x /\ Rabs (B2R x) <= 1) ex_cx.
Proof.
  assert (E1 : B2SF (fadd (fofZ 1) (fnorm 1 (-30))) = S754_finite false 4503599631564800 (-52)) by (vm_compute; reflexivity).
  assert (E2 : B2SF (fsub (fofZ 1) (fnorm 1 (-30))) = S754_finite false 9007199246352384 (-53)) by (vm_compute; reflexivity).
  apply sfR in E1 as [F1 E1]. apply sfR in E2 as [F2 E2].
  split; [repeat split; vm_compute; reflexivity|]. split.
  - unfold sect_of, ex_c. cbn [m_a1 m_a2 m_b0 m_b1 m_b2 ex_cs s_a1 s_a2 s_b0 s_b1 s_b2]. rewrite (proj1 (fofZ_val 0 ltac:(lia))), (proj1 (fofZ_val (-1) ltac:(lia))), E1.
    repeat split. unfold SF2R, Defs.F2R. cbn -[Rmult Rdiv pow]. lra.
  - unfold ex_cx. apply List.Forall_cons; [|apply List.Forall_cons; [|apply List.Forall_nil]]; split.
    + apply (proj2 (fofZ_val 1 ltac:(lia))).
    + rewrite (proj1 (fofZ_val 1 ltac:(lia))), Rabs_R1. lra.
    + exact F2.
    + rewrite E2. unfold SF2R, Defs.F2R. cbn -[Rmult Rdiv pow]. rewrite Rabs_pos_eq; lra.
Qed.
Lemma ex_c68 : fin_coeffs ex_c /\ sect_of ex_c ex_cs /\ sects_ok [ex_cs] 1 /\
  List.Forall (fun x => FloatSpec.is_fin x /\ Rabs (B2R x) <= 1) ex_cx /\ total_error [ex_cs] 1 0 <= 1 / 10 ^ 12 /\
  forall t, exists ys, c_run [ex_c] [st_init t] ex_cx ys /\ ys <> (snd (cs_run (MkCStages [ex_c] [st_init t]) (ex_cx : list (T D))) : list f64).
Proof.
  destruct ex_c_vals as (A & B & C). split; [exact A|]. split; [exact B|].
  pose proof g_pos as GP. assert (GS : g_abs <= / 2 ^ 60) by (unfold g_abs; apply Rinv_le_contravar; [apply pow_lt; lra|apply Rle_pow; [lra|lia]]).
  assert (B9 : 2 ^ 60 <= 2 ^ 900) by (apply Rle_pow; [lra|lia]).
  assert (NB : s_B ex_cs = 2 + / 2 ^ 30). { unfold s_B, ex_cs. cbn [s_b0 s_b1 s_b2]. rewrite (Rabs_pos_eq (1 + _)) by lra. rewrite Rabs_R0, (Rabs_left (-1)) by lra. lra. }
  assert (NA : s_A ex_cs = 0). { unfold s_A, ex_cs. cbn [s_a1 s_a2]. rewrite Rabs_R0. lra. }
  split; [|split; [exact C|split]].
  - cbn [sects_ok]. split; [|exact I]. unfold sect_ok. rewrite NA, NB. cbn [ex_cs s_a1 s_a2 s_G]. set (P := 2 ^ 900) in *. clearbody P. split; [exact gain_one|]. lra.
  - cbn [total_error]. unfold own_error. rewrite NA, NB. cbn [ex_cs s_G]. set (ga := g_abs) in *. clearbody ga. unfold g_rel. lra.
  - intros [| |].
    + eexists. split.
      * eapply c_more. { econstructor; [|constructor]. apply c_df1. repeat constructor. } eapply c_more; [|constructor].
        econstructor; [|constructor]. apply c_df1. apply cev_s; [|apply cev_m]. apply cev_s; [|apply cev_m]. apply cev_a; [|apply cev_m]. apply cev_al. apply cev_m.
      * intros E. apply (f_equal (map B2SF)) in E. vm_compute in E. discriminate E.
    + eexists. split.
      * eapply c_more. { econstructor; [|constructor]. apply c_df2; repeat constructor. } eapply c_more; [|constructor].
        econstructor; [|constructor]. apply c_df2; [repeat constructor|]. apply cev_a; [|apply cev_m]. apply cev_al. apply cev_m.
      * intros E. apply (f_equal (map B2SF)) in E. vm_compute in E. discriminate E.
    + eexists. split.
      * eapply c_more. { econstructor; [|constructor]. apply c_tdf2; repeat constructor. } eapply c_more; [|constructor].
        econstructor; [|constructor]. apply c_tdf2; [apply cev_ar; constructor|repeat constructor|repeat constructor].
      * intros E. apply (f_equal (map B2SF)) in E. vm_compute in E. discriminate E.
Qed.
