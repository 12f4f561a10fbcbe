(** Proofs: rounding errors of cascades and filters, and gains from pole radii. *)
From Coq Require Import ZArith List Bool Reals Lra Lia.
From Coquelicot Require Import Coquelicot.
From Flocq Require Import IEEE754.BinarySingleNaN.
From Verif Require Import Num Outcome Types Biquad State Cascade PoleFilter History RealNum Float64 FloatSpec Hoare Safe Stream
  AnyLemmas SigSpec SigProofs StabProofs RoundSpec RoundProofs RoundRun.
Import ListNotations.
Local Open Scope R_scope.

(** ** gains *)
Lemma rec_bound_n r W (u : nat -> R) n : 0 <= r < 1 -> 0 <= W ->
  u O <= W -> (forall i, (i < n)%nat -> u (S i) <= r * u i + W) -> u n <= W / (1 - r).
Proof.
  intros Hr HW H0 HS. assert (Q : W / (1 - r) * (1 - r) = W) by (field; lra).
  assert (Q0 : 0 <= W / (1 - r)) by (apply Rdiv_le_0_compat; lra).
  induction n as [|n IH]; [nra|]. assert (u n <= W / (1 - r)) by (apply IH; intros; apply HS; lia). specialize (HS n ltac:(lia)). nra.
Qed.
Lemma gain_roots a1 a2 p1 p2 r : RtoC a1 = (- (p1 + p2))%C -> RtoC a2 = (p1 * p2)%C -> Cmod p1 <= r -> Cmod p2 <= r -> r < 1 ->
  rec_gain a1 a2 (/ (1 - r) ^ 2).
Proof.
  intros E1 E2 P1 P2 Hr y W n HW HB. pose proof (Cmod_ge_0 p1) as Q1. pose proof (Cmod_ge_0 p2) as Q2.
  destruct (fact_rec a1 a2 p1 p2 y E1 E2) as [u [U0 [US [Y0 YS]]]].
  assert (W0 : 0 <= W / (1 - r)) by (apply Rdiv_le_0_compat; lra).
  assert (UB : forall i, (i <= n)%nat -> Cmod (u i) <= W / (1 - r)).
  { intros i Hi. apply (rec_bound_n r W (fun n => Cmod (u n))); try lra.
    - rewrite U0, cmod_R, <- prev_fir. apply HB. lia.
    - intros k Hk. rewrite US. eapply Rle_trans; [apply Cmod_triangle|]. rewrite Cmod_mult, cmod_R, <- prev_fir.
      specialize (HB (S k) ltac:(lia)). pose proof (Cmod_ge_0 (u k)). assert (Cmod p1 * Cmod (u k) <= r * Cmod (u k)) by (apply Rmult_le_compat_r; lra). lra. }
  rewrite <- cmod_R. replace (/ (1 - r) ^ 2 * W) with (W / (1 - r) / (1 - r)) by (field; lra).
  apply (rec_bound_n r (W / (1 - r)) (fun n => Cmod (RtoC (y n)))); try lra.
  - rewrite Y0. apply UB. lia.
  - intros k Hk. rewrite YS. eapply Rle_trans; [apply Cmod_triangle|]. rewrite Cmod_mult. specialize (UB (S k) ltac:(lia)).
    pose proof (Cmod_ge_0 (RtoC (y k))). assert (Cmod p2 * Cmod (RtoC (y k)) <= r * Cmod (RtoC (y k))) by (apply Rmult_le_compat_r; lra). lra.
Qed.
Lemma gain_within a1 a2 r : roots_within a1 a2 r -> r < 1 -> rec_gain a1 a2 (/ (1 - r) ^ 2).
Proof.
  intros H Hr. destruct (quad_roots a1 a2) as [p1 [p2 [E1 E2]]].
  apply (gain_roots a1 a2 p1 p2 r E1 E2); [apply H|apply H|exact Hr]; rewrite E1, E2; ring.
Qed.
Lemma gain_stable a1 a2 : stable_poly a1 a2 -> exists G, rec_gain a1 a2 G.
Proof.
  intros H. destruct (stable_roots a1 a2 H) as [p1 [p2 [E1 [E2 [P1 P2]]]]].
  exists (/ (1 - Rmax (Cmod p1) (Cmod p2)) ^ 2). apply (gain_roots a1 a2 p1 p2); auto.
  - apply Rmax_l.
  - apply Rmax_r.
  - apply Rmax_lub_lt; assumption.
Qed.
Lemma jury_within a1 a2 r : 0 < r -> Rabs a2 <= r * r -> Rabs a1 * r <= r * r + a2 -> roots_within a1 a2 r.
Proof.
  intros Hr H2 H1 [x y] E. injection E as E1 E2. simpl in E1, E2. unfold Cmod. simpl.
  rewrite <- (sqrt_square r) by lra. apply sqrt_le_1_alt. destruct (Req_dec y 0) as [->|Ny].
  - assert (F : x * x + a1 * x + a2 = 0) by lra. clear E1 E2.
    assert (A2 : - (r * r) <= a2 <= r * r) by (revert H2; unfold Rabs; destruct (Rcase_abs a2); lra).
    assert (A1 : a1 * r <= r * r + a2 /\ - a1 * r <= r * r + a2).
    { pose proof (Rle_abs a1). pose proof (Rle_abs (- a1)). rewrite Rabs_Ropp in H0. split; nra. }
    assert (- r <= x <= r); [|nra]. destruct A1 as [A1 A1']. split.
    + destruct (Rle_dec (- r) x) as [|N]; [assumption|]. exfalso. assert (N' : x < - r) by lra.
      set (x' := - a1 - x). assert (P : x * x' = a2) by (unfold x'; nra). assert (- r < x') by nra. assert ((x + r) * (x' + r) < 0) by nra. unfold x' in *. nra.
    + destruct (Rle_dec x r) as [|N]; [assumption|]. exfalso. assert (N' : r < x) by lra.
      set (x' := - a1 - x). assert (P : x * x' = a2) by (unfold x'; nra). assert (x' < r) by nra. assert ((x - r) * (x' - r) < 0) by nra. unfold x' in *. nra.
  - assert (x = - a1 / 2) by nra. subst x. assert (A2 : a2 <= r * r) by (revert H2; unfold Rabs; destruct (Rcase_abs a2); lra). nra.
Qed.

(** ** one stage, on lists *)
Definition fsq (xs : list f64) : nat -> f64 := fun n => nth n xs f0.
Lemma fsq_map xs : map (fsq xs) (seq 0 (length xs)) = xs.
Proof.
  unfold fsq. induction xs as [|a l IH]; simpl; auto. f_equal. rewrite <- seq_shift, map_map. exact IH.
Qed.
Lemma bq_run_fsq {m} (b : biquad (F64 m)) s (xs : list f64) n : (n < length xs)%nat ->
  nth n (snd (bq_run b s xs) : list f64) f0 = sout (fun s v => st_filter s b v) s (fsq xs) n.
Proof.
  intros H. set (stp := fun (s : st (F64 m)) (v : f64) => st_filter s b (v : T (F64 m))).
  assert (E : snd (bq_run b s xs) = map (sout stp s (fsq xs)) (seq 0 (length xs))).
  { rewrite bq_run_grun. exact (eq_trans (f_equal (fun l => snd (grun stp s l)) (eq_sym (fsq_map xs))) (grun_prefix stp (length xs) s (fsq xs))). }
  rewrite E. rewrite (nth_indep _ f0 (sout stp s (fsq xs) 0%nat)) by (rewrite map_length, seq_length; exact H).
  rewrite map_nth, seq_nth by exact H. reflexivity.
Qed.
Lemma bq_run_len {m} (b : biquad (F64 m)) s xs : length (snd (bq_run b s xs)) = length xs.
Proof. rewrite bq_run_grun. apply grun_length. Qed.
Lemma diffeq_fir a1 a2 b0 b1 b2 xs ys : diffeq 1 a1 a2 b0 b1 b2 xs ys ->
  length ys = length xs /\ forall n, (n < length xs)%nat -> fir 1 a1 a2 (seqof ys) n = fir b0 b1 b2 (seqof xs) n.
Proof.
  intros [L H]. split; [exact L|]. intros n Hn. specialize (H n Hn). revert H. unfold back, fir, seqof.
  destruct n as [|[|n]]; simpl; rewrite ?Nat.sub_0_r; intros H; exact H || lra.
Qed.

Lemma stage_round {m} (b : biquad (F64 m)) s t (xs : list f64) X us zs e :
  fin_coeffs b -> sect_of b s -> sect_ok s X -> 0 <= X -> 0 <= e ->
  List.Forall (okf X) xs -> length us = length xs ->
  (forall n, (n < length xs)%nat -> Rabs (B2R (nth n xs f0) - nth n us 0) <= e) ->
  diffeq 1 (s_a1 s) (s_a2 s) (s_b0 s) (s_b1 s) (s_b2 s) us zs ->
  let ys := snd (bq_run b (st_init t) xs) : list f64 in
  length ys = length xs /\ length zs = length xs /\ List.Forall (okf (out_bound s X)) ys /\
  forall n, (n < length xs)%nat -> Rabs (B2R (nth n ys f0) - nth n zs 0) <= s_G s * s_B s * e + own_error s X.
Proof.
  intros Hf (Ea1 & Ea2 & Eb0 & Eb1 & Eb2) (Hg & H1 & H2 & H3) HX He Hxs Hlu Hin Hd ys.
  destruct (diffeq_fir _ _ _ _ _ _ _ Hd) as [Lz Fz].
  assert (Hx : forall n, okf X (fsq xs n)).
  { intros n. unfold fsq. destruct (Nat.lt_ge_cases n (length xs)) as [L|L].
    - apply (proj1 (List.Forall_forall _ _) Hxs), nth_In, L.
    - rewrite nth_overflow by exact L. apply okf_0, HX. }
  set (rb := @MkBiquad RN 1 (s_a1 s) (s_a2 s) (s_b0 s) (s_b1 s) (s_b2 s)).
  set (z := flt rb (re (fsq xs))).
  assert (Hz : forall n, fir 1 (s_a1 s) (s_a2 s) z n = fir (s_b0 s) (s_b1 s) (s_b2 s) (re (fsq xs)) n) by (intros n; apply (flt_eq rb)).
  assert (Ly : length ys = length xs) by apply bq_run_len.
  assert (HS : forall n, okf (out_bound s X) (sout (fun s v => st_filter s b v) (st_init t) (fsq xs) n) /\
    Rabs (re (sout (fun s v => st_filter s b v) (st_init t) (fsq xs)) n - z n) <= own_error s X).
  { intros n. unfold out_bound, own_error, s_A, s_B in *. rewrite Ea1, Ea2, Eb0, Eb1, Eb2 in *. apply (stage_all b (fsq xs) (s_G s) X Hf Hg Hx H1 H2 H3 z Hz t n). }
  split; [exact Ly|]. split; [lia|]. split.
  - apply List.Forall_forall. intros v Hv. destruct (In_nth _ _ f0 Hv) as (n & Hn & <-). unfold ys. rewrite bq_run_fsq by lia. apply HS.
  - intros n Hn. unfold ys. rewrite bq_run_fsq by exact Hn. destruct (HS n) as [_ E].
    assert (Q : Rabs (z n - seqof zs n) <= s_G s * (s_B s * e)).
    { apply (gain_fir _ _ _ Hg (fun k => z k - seqof zs k)).
      - apply Rmult_le_pos; [|exact He]. unfold s_B. pose proof (Rabs_pos (s_b0 s)). pose proof (Rabs_pos (s_b1 s)). pose proof (Rabs_pos (s_b2 s)). lra.
      - intros i Hi. rewrite fir_sub, Hz, Fz by lia. rewrite <- fir_sub. apply fir_bd; [exact He|]. intros j Hj. apply Hin. lia. }
    unfold seqof in Q. fold (re (sout (fun (s : st (F64 m)) (v : T (F64 m)) => st_filter s b v) (st_init t) (fsq xs)) n).
    revert E Q. generalize (re (sout (fun (s : st (F64 m)) (v : T (F64 m)) => st_filter s b v) (st_init t) (fsq xs)) n). intros v E Q.
    pose proof (Rabs_triang (v - z n) (z n - nth n zs 0)) as TR. replace (v - z n + (z n - nth n zs 0)) with (v - nth n zs 0) in TR by ring. lra.
Qed.

(** ** cascades *)
Lemma own_error_pos s X : sect_ok s X -> 0 <= X -> 0 <= own_error s X /\ 0 <= out_bound s X /\ 0 <= s_G s * s_B s.
Proof.
  intros (Hg & _) HX. pose proof (gain_ge1 _ _ _ Hg) as G1. pose proof g_pos.
  assert (0 < g_rel) by (rewrite g_rel_uu; unfold uu; lra).
  assert (B0 : 0 <= s_B s). { unfold s_B. pose proof (Rabs_pos (s_b0 s)). pose proof (Rabs_pos (s_b1 s)). pose proof (Rabs_pos (s_b2 s)). lra. }
  assert (A0 : 0 <= s_A s). { unfold s_A. pose proof (Rabs_pos (s_a1 s)). pose proof (Rabs_pos (s_a2 s)). lra. }
  assert (0 <= s_B s * X) by (apply Rmult_le_pos; assumption). assert (0 <= (1 + s_B s) * g_abs) by (apply Rmult_le_pos; lra).
  assert (0 <= s_A s * s_G s) by (apply Rmult_le_pos; lra).
  unfold own_error, out_bound. split; [|split].
  - apply Rmult_le_pos; [lra|]. apply Rplus_le_le_0_compat; [|lra]. apply Rmult_le_pos; [apply Rmult_le_pos; lra|lra].
  - apply Rmult_le_pos; lra.
  - apply Rmult_le_pos; lra.
Qed.
Lemma cas_round {m} t (bs : list (biquad (F64 m))) : forall l (xs : list f64) X us zs e,
  List.Forall fin_coeffs bs -> List.Forall2 sect_of bs l -> sects_ok l X -> 0 <= X -> 0 <= e ->
  List.Forall (okf X) xs -> length us = length xs ->
  (forall n, (n < length xs)%nat -> Rabs (B2R (nth n xs f0) - nth n us 0) <= e) ->
  exact_out l us zs ->
  let ys := snd (cs_run (MkCStages bs (repeat (st_init t) (length bs))) xs) : list f64 in
  length ys = length xs /\ length zs = length xs /\ List.Forall (okf (last_bound l X)) ys /\
  forall n, (n < length xs)%nat -> Rabs (B2R (nth n ys f0) - nth n zs 0) <= total_error l X e.
Proof.
  induction bs as [|b bs IH]; intros l xs X us zs e Hf H2 Hok HX He Hxs Hl Hin Hex; inversion H2; subst; simpl in *.
  - subst zs. rewrite cs_run_nil. simpl. auto.
  - destruct Hex as (vs & Hd & Hex). destruct Hok as [Hs Hok]. inversion Hf; subst.
    rewrite cs_run_cons by (rewrite repeat_length; reflexivity). cbn [snd].
    destruct (stage_round b y t xs X us vs e) as (L1 & L2 & O & E); try assumption.
    destruct (own_error_pos y X Hs HX) as (P1 & P2 & P3).
    destruct (IH l' (snd (bq_run b (st_init t) xs)) (out_bound y X) vs zs (s_G y * s_B y * e + own_error y X)) as (Q1 & Q2 & Q3 & Q4); try assumption.
    + apply Rplus_le_le_0_compat; [apply Rmult_le_pos; assumption|assumption].
    + rewrite L1. exact L2.
    + intros n Hn. apply E. rewrite <- L1. exact Hn.
    + rewrite L1 in Q1, Q2, Q4. split; [exact Q1|]. split; [exact Q2|]. split; [exact Q3|exact Q4].
Qed.

(** the theorem: for every input, the outputs are numbers close to the exact ones *)
Lemma c54_cs m (bs : list (biquad (F64 m))) (l : list sect) t (xs : list f64) X zs :
  List.Forall fin_coeffs bs -> List.Forall2 sect_of bs l -> sects_ok l X ->
  0 <= X -> List.Forall (fun x => FloatSpec.is_fin x /\ Rabs (B2R x) <= X) xs -> exact_out l (map B2R xs) zs ->
  let ys := snd (cs_run (MkCStages bs (repeat (st_init t) (length bs))) xs) : list f64 in
  length ys = length xs /\ length zs = length xs /\
  List.Forall (fun y => FloatSpec.is_fin y /\ Rabs (B2R y) <= last_bound l X) ys /\
  List.Forall2 (fun y z => Rabs (B2R y - z) <= total_error l X 0) ys zs.
Proof.
  intros Hf H2 Hok HX Hxs Hex ys.
  destruct (cas_round t bs l xs X (map B2R xs) zs 0) as (L1 & L2 & O & E); auto; try lra.
  - apply map_length.
  - intros n Hn. rewrite (nth_indep _ 0 (B2R f0)) by (rewrite map_length; exact Hn). rewrite map_nth, Rminus_diag_eq, Rabs_R0 by reflexivity. lra.
  - fold ys in L1, O, E. split; [exact L1|]. split; [exact L2|]. split; [exact O|].
    assert (L : length ys = length zs) by lia. rewrite <- L1 in E. clear - L E. revert zs L E. generalize (total_error l X 0). intros d.
    induction ys as [|y ys IH]; intros [|z zs] L E; try discriminate; constructor.
    + apply (E O). simpl. lia.
    + apply IH; [simpl in L; lia|]. intros n Hn. apply (E (S n)). simpl. lia.
Qed.

Lemma c54_filt m : (forall r th, npolar (F64 m) r th <> None) -> forall t k FO (f : filt (F64 m)) (l : list sect) (xs : list f64) X zs,
  (1 <= FO)%Z -> in_int (2 * FO) = true -> reachable_ok t k FO f ->
  List.Forall fin_coeffs (fl_stages f) -> List.Forall2 sect_of (fl_stages f) l -> sects_ok l X ->
  0 <= X -> List.Forall (fun x => FloatSpec.is_fin x /\ Rabs (B2R x) <= X) xs -> exact_out l (map B2R xs) zs ->
  let ys := snd (filt_run (filt_reset f) xs) : list f64 in
  length ys = length xs /\ length zs = length xs /\
  List.Forall (fun y => FloatSpec.is_fin y /\ Rabs (B2R y) <= last_bound l X) ys /\
  List.Forall2 (fun y z => Rabs (B2R y - z) <= total_error l X 0) ys zs.
Proof.
  intros HP t k FO f l xs X zs HF HI R Hf H2 Hok HX Hxs Hex. pose proof (reach_filt_ok HP t k FO HF HI f R) as (P & L & T).
  rewrite filt_run_snd. unfold fl_cs, filt_reset. cbn [fl_states]. rewrite (reset_states_init t) by exact T.
  replace (length (fl_states f)) with (length (fl_stages f)). { apply c54_cs; assumption. }
  destruct P as (P & _). unfold cas_ok in P. destruct P as (P1 & P2 & _). unfold fl_stages. apply Nat2Z.inj. lia.
Qed.

(** ** the exact output *)
Lemma diffeq_exists a1 a2 b0 b1 b2 xs : exists zs, diffeq 1 a1 a2 b0 b1 b2 xs zs /\ forall zs', diffeq 1 a1 a2 b0 b1 b2 xs zs' -> zs' = zs.
Proof.
  set (rb := @MkBiquad RN 1 a1 a2 b0 b1 b2). set (z := flt rb (seqof xs)).
  assert (Hz : forall n, fir 1 a1 a2 z n = fir b0 b1 b2 (seqof xs) n) by (intros n; apply (flt_eq rb)).
  assert (Nz : forall n, (n < length xs)%nat -> nth n (map z (seq 0 (length xs))) 0 = z n).
  { intros n Hn. rewrite (nth_indep _ 0 (z 0%nat)) by (rewrite map_length, seq_length; exact Hn). rewrite map_nth, seq_nth by exact Hn. reflexivity. }
  exists (map z (seq 0 (length xs))). split.
  - split; [rewrite map_length, seq_length; reflexivity|]. intros n Hn. specialize (Hz n). revert Hz. unfold fir, back, seqof.
    destruct n as [|[|n]]; cbn [Nat.leb Nat.sub del]; rewrite ?Nat.sub_0_r; repeat (rewrite Nz by lia); intros Hz'; lra.
  - intros zs' H. destruct (diffeq_fir _ _ _ _ _ _ _ H) as [L F]. apply (nth_ext _ _ 0 0); [rewrite map_length, seq_length; exact L|].
    intros n Hn. rewrite L in Hn. rewrite Nz by exact Hn. change (nth n zs' 0) with (seqof zs' n). revert n Hn. apply (strong (fun n => (n < length xs)%nat -> seqof zs' n = z n)).
    intros n IH Hn. specialize (F n Hn). rewrite <- Hz in F. unfold fir in F. destruct n as [|[|n]]; cbn [del] in F.
    + lra.
    + rewrite (IH O) in F by lia. lra.
    + rewrite (IH n), (IH (S n)) in F by lia. lra.
Qed.
Lemma exact_exists l : forall xs, exists zs, exact_out l xs zs /\ forall zs', exact_out l xs zs' -> zs' = zs.
Proof.
  induction l as [|s l IH]; intros xs; simpl.
  - exists xs. auto.
  - destruct (diffeq_exists (s_a1 s) (s_a2 s) (s_b0 s) (s_b1 s) (s_b2 s) xs) as (us & U1 & U2). destruct (IH us) as (zs & Z1 & Z2).
    exists zs. split; [exists us; auto|]. intros zs' (us' & D & E). apply Z2. rewrite <- (U2 us' D). exact E.
Qed.
