(** Proofs: in binary64 the answer to a periodic signal becomes exactly periodic, but not exactly zero. *)
From Coq Require Import ZArith List Bool Reals Lia Classical.
From Flocq Require Import IEEE754.BinarySingleNaN.
From Verif Require Import Num Outcome Types Biquad State Cascade PoleFilter RBJ History Float64 FloatSpec FloatLemmas Stream SigSpec SigProofs RoundSpec RoundProofs RoundRun RoundLemmas RunOnLemmas.
Import ListNotations.

(** ** finite sets *)
Definition finite_type (A : Type) : Prop := exists l : list A, forall x, In x l.
Lemma fin_Z (K : Z) : exists l, forall z, (0 <= z < K)%Z -> In z l.
Proof.
  destruct (Z.le_gt_cases 0 K) as [H|H]; [|exists []; intros; lia]. revert K H. apply natlike_ind; [exists []; intros; lia|].
  intros K HK (l & Hl). exists (K :: l). intros z Hz. destruct (Z.eq_dec z K) as [->|]; [left; reflexivity|right; apply Hl; lia].
Qed.
Lemma fin_pull {A B} (f : A -> B) (l : list B) : (forall x y, f x = f y -> x = y) -> exists la, forall x, In (f x) l -> In x la.
Proof.
  intros Hf. induction l as [|b l (la & H)]; [exists []; intros x []|].
  destruct (classic (exists x, f x = b)) as [(x & <-)|N].
  - exists (x :: la). intros y [E|E]; [left; apply Hf, E|right; apply H, E].
  - exists la. intros y [E|E]; [destruct N; exists y; auto|apply H, E].
Qed.
Lemma fin_inj {A} (f : A -> Z) K : (forall x, 0 <= f x < K)%Z -> (forall x y, f x = f y -> x = y) -> finite_type A.
Proof. intros Hb Hf. destruct (fin_Z K) as (l & Hl). destruct (fin_pull f l Hf) as (la & H). exists la. intros x. apply H, Hl, Hb. Qed.
Lemma fin_prod {A B} : finite_type A -> finite_type B -> finite_type (A * B).
Proof. intros (l & H) (k & I). exists (list_prod l k). intros [x y]. apply in_prod; auto. Qed.
Lemma fin_image {A B} (f : A -> B) : (forall y, exists x, f x = y) -> finite_type A -> finite_type B.
Proof. intros Hf (l & H). exists (map f l). intros y. destruct (Hf y) as (x & <-). apply in_map, H. Qed.
Lemma fin_lists {A} n : finite_type A -> exists ls : list (list A), forall l, length l = n -> In l ls.
Proof.
  intros (la & H). induction n as [|n (ls & IH)]; [exists [[]]; intros [|] E; [left; reflexivity|discriminate]|].
  exists (map (fun p => fst p :: snd p) (list_prod la ls)). intros [|a l] E; [discriminate|]. apply in_map_iff. exists (a, l). split; [reflexivity|]. apply in_prod; [apply H|apply IH; simpl in E; lia].
Qed.
Lemma pigeon {A} (l : list A) (s : nat -> A) : (forall n, In (s n) l) -> exists i j, (i < j)%nat /\ s i = s j.
Proof.
  intros H. apply NNPP. intros N. assert (D : forall i j, s i = s j -> i = j).
  { intros i j E. destruct (Nat.lt_trichotomy i j) as [L|[L|L]]; auto; destruct N; [exists i, j|exists j, i]; auto. }
  assert (NoDup (map s (seq 0 (S (length l))))).
  { apply FinFun.Injective_map_NoDup; [exact D|apply seq_NoDup]. }
  assert (I : incl (map s (seq 0 (S (length l)))) l) by (intros a Ha; apply in_map_iff in Ha; destruct Ha as (n & <- & _); apply H).
  pose proof (NoDup_incl_length H0 I) as Q. rewrite map_length, seq_length in Q. lia.
Qed.

(** ** there are finitely many doubles *)
Definition enc (v : f64) : Z :=
  match v with
  | B754_nan => 0 | B754_zero s => if s then 1 else 2 | B754_infinity s => if s then 3 else 4
  | B754_finite s p e _ => 8 + (if s then 1 else 0) + 2 * (Zpos p + 2 ^ 60 * (e + 2000))
  end%Z.
Lemma enc_fin (p : positive) e : SpecFloat.bounded 53 1024 p e = true -> (Zpos p < 2 ^ 60)%Z /\ (-2000 <= e <= 2000)%Z.
Proof.
  intros H. unfold SpecFloat.bounded in H. apply andb_prop in H. destruct H as [H1 H2]. apply Zeq_bool_eq in H1. apply Zle_bool_imp_le in H2.
  unfold SpecFloat.fexp, SpecFloat.emin in H1. pose proof (Digits.Zpos_digits2_pos p) as Q.
  assert (D : (Zpos (SpecFloat.digits2_pos p) <= 53)%Z) by lia.
  split; [|lia]. rewrite Q in D.
  assert (P : (Z.abs (Zpos p) < Zpower 2 60)%Z) by (apply (Digits.Zpower_gt_Zdigits Zaux.radix2); lia). exact P.
Qed.
Lemma enc_bd v : (0 <= enc v < 2 ^ 80)%Z.
Proof. destruct v as [[]|[]| |s p e H]; cbn [enc]; try lia. destruct (enc_fin p e H). destruct s; lia. Qed.
Lemma enc_inj v w : enc v = enc w -> v = w.
Proof.
  destruct v as [[]|[]| |s p e H]; destruct w as [[]|[]| |s' p' e' H']; cbn [enc]; intros E; try discriminate; try reflexivity; try (destruct (enc_fin p e H); destruct s; lia); try (destruct (enc_fin p' e' H'); destruct s'; lia).
  destruct (enc_fin p e H). destruct (enc_fin p' e' H'). apply B2SF_inj. cbn [B2SF].
  assert (s = s') by (destruct s, s'; auto; lia). subst s'. assert (e = e') by (destruct s; lia). subst e'. assert (p = p') by (destruct s; lia). subst p'. reflexivity.
Qed.
Lemma fin_f64 : finite_type f64.
Proof. exact (fin_inj enc (2 ^ 80) enc_bd enc_inj). Qed.
Lemma fin_st m : finite_type (st (F64 m)).
Proof.
  assert (Q : finite_type (f64 * f64 * (f64 * f64))) by (repeat apply fin_prod; exact fin_f64). destruct Q as (l & H).
  exists (map (fun p : f64 * f64 * (f64 * f64) => @S1 (F64 m) (fst (fst p)) (snd (fst p)) (fst (snd p)) (snd (snd p))) l ++
          map (fun p : f64 * f64 * (f64 * f64) => @S2 (F64 m) (fst (fst p)) (snd (fst p))) l ++
          map (fun p : f64 * f64 * (f64 * f64) => @S3 (F64 m) (fst (fst p)) (snd (fst p)) (fst (snd p)) (snd (snd p))) l).
  intros [a b c e|a b|a b c e]; rewrite !in_app_iff; [left|right; left|right; right]; apply in_map_iff.
  - exists ((a, b), (c, e)). split; [reflexivity|apply H].
  - exists ((a, b), (a, b)). split; [reflexivity|apply H].
  - exists ((a, b), (c, e)). split; [reflexivity|apply H].
Qed.

(** ** periodic input *)
Section Steps.
  Context {S I O : Type} (stp : S -> I -> S * O).
  Lemma same_future s x a b : sst stp s x a = sst stp s x b -> (forall j, x (a + j)%nat = x (b + j)%nat) ->
    forall j, sst stp s x (a + j) = sst stp s x (b + j) /\ sout stp s x (a + j) = sout stp s x (b + j).
  Proof.
    intros E X. assert (ST : forall j, sst stp s x (a + j) = sst stp s x (b + j)).
    { induction j as [|j IH]; [rewrite !Nat.add_0_r; exact E|]. rewrite !Nat.add_succ_r. cbn [sst]. rewrite IH, X. reflexivity. }
    intros j. split; [apply ST|]. unfold sout. rewrite ST, X. reflexivity.
  Qed.
End Steps.
Lemma period_mul {A} (x : nat -> A) q : (forall n, x (n + q)%nat = x n) -> forall k n, x (n + k * q)%nat = x n.
Proof. intros H. induction k as [|k IH]; intros n; [f_equal; lia|]. replace (n + S k * q)%nat with ((n + k * q) + q)%nat by lia. rewrite H. apply IH. Qed.
Lemma cs_sst_shape {m} (c : cstages (F64 m)) x n : cs_stages (sst cs_filter c x n) = cs_stages c /\ length (cs_states (sst cs_filter c x n)) = length (cs_states c).
Proof.
  induction n as [|n [A B]]; [auto|]. cbn [sst]. pose proof (cs_run_shape [x n] (sst cs_filter c x n)) as [P Q]. cbn [cs_run] in P, Q. destruct (cs_filter (sst cs_filter c x n) (x n)) as [c' y]. cbn [fst] in *. split; congruence.
Qed.
Lemma c89_cs m (c : cstages (F64 m)) (x : nat -> f64) q : (0 < q)%nat -> (forall n, x (n + q)%nat = x n) ->
  exists i p, (0 < p)%nat /\ forall k n, (i <= n)%nat -> (n + p < k)%nat ->
  let ys := snd (cs_run c (map x (seq 0 k))) : list f64 in nth (n + p) ys f0 = nth n ys f0.
Proof.
  intros Hq Hx. destruct (fin_lists (length (cs_states c)) (fin_st m)) as (ls & HL).
  destruct (pigeon (map (fun ss => MkCStages (cs_stages c) ss) ls) (fun j => sst cs_filter c x (j * q))) as (i & j & L & E).
  { intros n. apply in_map_iff. destruct (cs_sst_shape c x (n * q)) as [A B]. exists (cs_states (sst cs_filter c x (n * q))). split; [|apply HL, B].
    destruct (sst cs_filter c x (n * q)) as [u v]. cbn [cs_stages cs_states] in *. rewrite A. reflexivity. }
  exists (i * q)%nat, ((j - i) * q)%nat. split; [nia|]. intros k n Hn Hk ys.
  assert (NY : forall n, (n < k)%nat -> nth n ys f0 = sout cs_filter c x n).
  { intros n0 Hn0. assert (YE : ys = map (sout cs_filter c x) (seq 0 k)) by exact (f_equal snd (eq_trans (cs_run_grun (N := F64 m) c (map x (seq 0 k))) (grun_seq cs_filter k c x 0))). rewrite YE.
    rewrite nth_indep with (d' := sout cs_filter c x 0) by (rewrite map_length, seq_length; exact Hn0). rewrite map_nth, seq_nth by exact Hn0. reflexivity. }
  assert (Hnk : (n < k)%nat) by (revert Hk; generalize ((j - i) * q)%nat; intros; lia).
  rewrite (NY (n + (j - i) * q)%nat Hk), (NY n Hnk). replace n with (i * q + (n - i * q))%nat at 2 by lia. replace (n + (j - i) * q)%nat with (j * q + (n - i * q))%nat by nia.
  symmetry. apply (same_future cs_filter c x (i * q) (j * q) E). intros r. replace (i * q + r)%nat with (r + i * q)%nat by lia. replace (j * q + r)%nat with (r + j * q)%nat by lia. rewrite !(period_mul x q Hx). reflexivity.
Qed.
Lemma c89_filt m (f : filt (F64 m)) (x : nat -> f64) q : (0 < q)%nat -> (forall n, x (n + q)%nat = x n) ->
  exists i p, (0 < p)%nat /\ forall k n, (i <= n)%nat -> (n + p < k)%nat ->
  let ys := snd (filt_run f (map x (seq 0 k))) : list f64 in nth (n + p) ys f0 = nth n ys f0.
Proof.
  intros Hq Hx. destruct (c89_cs m (fl_cs f) x q Hq Hx) as (i & p & Hp & H). exists i, p. split; [exact Hp|]. intros k n Hi Hk. rewrite filt_run_cs. cbn [snd]. exact (H k n Hi Hk).
Qed.
Lemma c89_rbj m (f : rbj (F64 m)) (x : nat -> f64) q : (0 < q)%nat -> (forall n, x (n + q)%nat = x n) ->
  exists i p, (0 < p)%nat /\ forall k n, (i <= n)%nat -> (n + p < k)%nat ->
  let ys := snd (rbj_run f (map x (seq 0 k))) : list f64 in nth (n + p) ys f0 = nth n ys f0.
Proof.
  intros Hq Hx. destruct (c89_cs m (MkCStages [r_bq f] [r_st f]) x q Hq Hx) as (i & p & Hp & H). exists i, p. split; [exact Hp|]. intros k n Hi Hk. rewrite rbj_run_cs. exact (H k n Hi Hk).
Qed.
