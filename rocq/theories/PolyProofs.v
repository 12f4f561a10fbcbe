(** Proofs: a polynomial with as many distinct roots as its degree is the product of its linear
    factors; Chebyshev polynomials at complex points. *)
From Coq Require Import List Reals Lra Lia.
From Coquelicot Require Import Coquelicot.
From Verif Require Import SigSpec ChebSpec RespProofs.
Import ListNotations.
Local Open Scope R_scope.

(** f is a polynomial function of degree <= n with z^n coefficient L *)
Inductive poly : nat -> C -> (C -> C) -> Prop :=
| P0 : forall (L : C) (f : C -> C), (forall z, f z = L) -> poly O L f
| PS : forall n (L c : C) (f g : C -> C), poly n L g -> (forall z, f z = (z * g z + c)%C) -> poly (S n) L f.

Lemma poly_ext n L f g : (forall z, f z = g z) -> poly n L f -> poly n L g.
Proof.
  intros E H. revert g E. induction H as [L f Hf|n L c f h Hh IH Hf]; intros g E.
  - apply P0. intros z. rewrite <- E. apply Hf.
  - eapply PS; [exact Hh|]. intros z. rewrite <- E. apply Hf.
Qed.
Lemma poly_lead n L L' f : L = L' -> poly n L f -> poly n L' f.
Proof. intros ->. auto. Qed.
Lemma poly_add n L L' f g : poly n L f -> poly n L' g -> poly n (L + L')%C (fun z => f z + g z)%C.
Proof.
  intros H. revert L' g. induction H as [L f Hf|n L c f h Hh IH Hf]; intros L' g G.
  - inversion G; subst. apply P0. intros z. rewrite Hf, H. reflexivity.
  - inversion G as [|n' L0 c' g' h' Hh' Hg]; subst. eapply (PS _ _ (c + c')%C); [exact (IH _ _ Hh')|].
    intros z. cbv beta. rewrite Hf, Hg. ring.
Qed.
Lemma poly_pad n L f : poly n L f -> poly (S n) 0%C f.
Proof.
  intros H. induction H as [L f Hf|n L c f h Hh IH Hf].
  - eapply (PS _ _ L); [apply (P0 0%C (fun _ => 0%C)); reflexivity|]. intros z. rewrite Hf. ring.
  - eapply (PS _ _ c); [exact IH|]. exact Hf.
Qed.
Lemma poly_scale n L f a : poly n L f -> poly n (a * L)%C (fun z => a * f z)%C.
Proof.
  intros H. induction H as [L f Hf|n L c f h Hh IH Hf].
  - apply P0. intros z. rewrite Hf. reflexivity.
  - eapply (PS _ _ (a * c)%C); [exact IH|]. intros z. cbv beta. rewrite Hf. ring.
Qed.
Lemma poly_z n L f : poly n L f -> poly (S n) L (fun z => z * f z)%C.
Proof. intros H. eapply (PS _ _ 0%C); [exact H|]. intros z. ring. Qed.
Lemma poly_pads k n L f : poly n L f -> (0 < k)%nat -> poly (k + n) 0%C f.
Proof.
  intros H Hk. induction k as [|k IH]; [lia|]. destruct k.
  - apply (poly_pad _ _ _ H).
  - simpl. eapply poly_pad. apply IH. lia.
Qed.
Lemma poly_mul n L f m L' g : poly n L f -> poly m L' g -> poly (n + m) (L * L')%C (fun z => f z * g z)%C.
Proof.
  intros H G. induction H as [L f Hf|n L c f h Hh IH Hf].
  - simpl. eapply poly_ext; [|apply (poly_scale _ _ _ L G)]. intros z. cbv beta. rewrite Hf. reflexivity.
  - pose proof (poly_add _ _ _ _ _ (poly_z _ _ _ IH) (poly_pads (S n) m _ _ (poly_scale _ _ _ c G) ltac:(lia))) as Q.
    eapply poly_ext; [|eapply poly_lead; [|exact Q]].
    + intros z. cbv beta. rewrite Hf. ring.
    + ring.
Qed.
Lemma poly_const (c : C) n : (0 < n)%nat -> poly n 0%C (fun _ => c).
Proof. intros H. replace n with (n + 0)%nat by lia. apply (poly_pads n 0 c); [apply P0; reflexivity|exact H]. Qed.

Lemma poly_div n L f r : poly (S n) L f -> exists q, poly n L q /\ forall z, f z = ((z - r) * q z + f r)%C.
Proof.
  revert L f. induction n as [|n IH]; intros L f H; inversion H as [|? ? c ? g G Hf]; subst.
  - inversion G; subst. exists (fun _ => L). split; [apply P0; reflexivity|]. intros z. rewrite !Hf, !H0. ring.
  - destruct (IH _ _ G) as [q [Q Hq]]. exists (fun z => z * q z + g r)%C. split.
    + eapply PS; [exact Q|]. reflexivity.
    + intros z. rewrite !Hf. rewrite (Hq z). ring.
Qed.

Lemma poly_roots rs : forall L f, poly (length rs) L f -> NoDup rs -> List.Forall (fun r => f r = 0%C) rs ->
  forall z, f z = (L * cprod (map (fun r => z - r)%C rs))%C.
Proof.
  induction rs as [|r rs IH]; intros L f P D F z.
  - inversion P; subst. rewrite H. cbn [map]. unfold cprod. simpl. ring.
  - cbn [length] in P. destruct (poly_div _ _ _ r P) as [q [Q Hq]]. inversion D; subst. inversion F; subst.
    cbn [map]. change (cprod ((z - r)%C :: ?l)) with ((z - r) * cprod l)%C.
    rewrite Hq, H3, (IH _ _ Q H2).
    + ring.
    + apply Forall_forall. intros s Hs. rewrite Forall_forall in H4. pose proof (H4 s Hs) as E. rewrite Hq, H3, Cplus_0_r in E.
      destruct (Ceq_dec (q s) 0%C) as [Z|Z]; [exact Z|]. exfalso. apply H1.
      assert (N : (s - r)%C <> 0%C).
      { intros N. apply H1. replace r with s; [exact Hs|]. replace s with (s - r + r)%C by ring. rewrite N. ring. }
      exfalso. apply (Cmult_neq_0 _ _ N Z E).
Qed.

(** ** Chebyshev polynomials on C *)
Fixpoint ccheb2 (n : nat) (x : C) : C * C :=
  match n with
  | O => (RtoC 1, x)
  | S n' => let '(a, b) := ccheb2 n' x in (b, (2 * x * b - a)%C)
  end.
Definition ccheb (n : nat) (x : C) : C := fst (ccheb2 n x).

Lemma ccheb2_real n x : ccheb2 n (RtoC x) = (RtoC (fst (cheb2 n x)), RtoC (snd (cheb2 n x))).
Proof.
  induction n as [|n IH]; [reflexivity|]. cbn [ccheb2 cheb2]. rewrite IH. destruct (cheb2 n x) as [a b]. cbn [fst snd].
  f_equal. rewrite !RtoC_minus, !RtoC_mult. reflexivity.
Qed.
Lemma ccheb_real n x : ccheb n (RtoC x) = RtoC (cheb n x).
Proof. unfold ccheb, cheb. rewrite ccheb2_real. reflexivity. Qed.


Fixpoint cpw (w : C) (n : nat) : C := match n with O => RtoC 1 | S n' => (w * cpw w n')%C end.
Lemma cpw_nz (w : C) n : w <> 0%C -> cpw w n <> 0%C.
Proof. intros H. induction n as [|n IH]; cbn [cpw]; [apply C1_nz|apply Cmult_neq_0; [exact H|exact IH]]. Qed.
Lemma cpw_cis t n : cpw (cis t) n = cis (INR n * t).
Proof.
  induction n as [|n IH]; cbn [cpw]; [rewrite Rmult_0_l; symmetry; apply cis_0|].
  rewrite IH, <- cis_add. f_equal. rewrite S_INR. ring.
Qed.
Lemma cpw_real x n : cpw (RtoC x) n = RtoC (x ^ n).
Proof. induction n as [|n IH]; cbn [cpw pow]; [reflexivity|]. rewrite IH, RtoC_mult. reflexivity. Qed.
Lemma cpw_mult (u v : C) n : cpw (u * v)%C n = (cpw u n * cpw v n)%C.
Proof. induction n as [|n IH]; cbn [cpw]; [ring|]. rewrite IH. ring. Qed.
Lemma cpw_mod (u : C) n : Cmod (cpw u n) = Cmod u ^ n.
Proof. induction n as [|n IH]; cbn [cpw pow]; [apply Cmod_1|]. rewrite Cmod_mult, IH. reflexivity. Qed.
Lemma poly_cpw n : poly n (RtoC 1) (fun z => cpw z n).
Proof. induction n as [|n IH]; cbn [cpw]; [apply P0; reflexivity|]. apply (poly_z _ _ _ IH). Qed.

Definition half (c : C) : C := (c * RtoC (/ 2))%C.
Lemma ccheb2_half n (w : C) : w <> 0%C ->
  ccheb2 n (half (w + / w)%C) = (half (cpw w n + / cpw w n)%C, half (cpw w (S n) + / cpw w (S n))%C).
Proof.
  intros H. assert (T : RtoC 2 <> 0%C) by (intros Q; apply RtoC_inj in Q; lra).
  assert (E2 : RtoC 2 = (1 + 1)%C) by (rewrite <- RtoC_plus; f_equal; lra).
  unfold half. rewrite RtoC_inv by lra.
  induction n as [|n IH].
  - cbn [ccheb2 cpw]. rewrite E2 in *. f_equal; field; auto using C1_nz.
  - cbn [ccheb2]. rewrite IH. f_equal. cbn [cpw].
    pose proof (cpw_nz w n H) as W. rewrite E2 in *. generalize dependent (cpw w n). intros v _ W. field. repeat split; auto.
Qed.
Lemma ccheb_half n (w : C) : w <> 0%C -> ccheb n (half (w + / w)%C) = half (cpw w n + / cpw w n)%C.
Proof. intros H. unfold ccheb. rewrite ccheb2_half by exact H. reflexivity. Qed.

(** cos (t - i v) *)
Definition ccos (v t : R) : C := (cosh v * cos t, sinh v * sin t).
Lemma ccos_half v t : ccos v t = half ((RtoC (exp v) * cis t) + / (RtoC (exp v) * cis t))%C.
Proof.
  assert (E : (/ (RtoC (exp v) * cis t) = RtoC (exp (- v)) * cis (- t))%C).
  { assert (Z1 : RtoC (exp v) <> 0%C) by (intros Q; apply RtoC_inj in Q; pose proof (exp_pos v); lra).
    assert (Z2 : cis t <> 0%C) by (intros Q; pose proof (cis_mod t) as M; rewrite Q, Cmod_0 in M; lra).
    replace (/ (RtoC (exp v) * cis t))%C with (/ (RtoC (exp v) * cis t) * (cis t * cis (- t)))%C by (rewrite cis_neg; ring).
    rewrite exp_Ropp, RtoC_inv by (pose proof (exp_pos v); lra). field. split; assumption. }
  rewrite E. unfold ccos, half, cis, cosh, sinh. rewrite cos_neg, sin_neg. apply injective_projections; simpl; field.
Qed.
Lemma exp_pow v n : exp v ^ n = exp (INR n * v).
Proof.
  induction n as [|n IH]; [simpl; rewrite Rmult_0_l, exp_0; reflexivity|].
  cbn [pow]. rewrite IH, <- exp_plus. f_equal. rewrite S_INR. ring.
Qed.
Lemma ccheb_ccos n v t : ccheb n (ccos v t) = ccos (INR n * v) (INR n * t).
Proof.
  rewrite ccos_half, ccheb_half, cpw_mult, cpw_cis, cpw_real, exp_pow.
  - symmetry. apply ccos_half.
  - intros Q. pose proof (f_equal Cmod Q) as M. rewrite Cmod_mult, cis_mod, Cmod_R, Cmod_0 in M.
    pose proof (exp_pos v). rewrite Rabs_right in M; lra.
Qed.

(** leading coefficients *)
Definition cheb_lead (n : nat) : R := match n with O => 1 | S n' => 2 ^ n' end.
Lemma poly_ccheb2 n : poly n (RtoC (cheb_lead n)) (fun z => fst (ccheb2 n z)) /\
  poly (S n) (RtoC (2 ^ n)) (fun z => snd (ccheb2 n z)).
Proof.
  induction n as [|n [IH1 IH2]].
  - split; [apply P0; reflexivity|]. simpl. eapply (PS _ _ 0%C); [apply (P0 (RtoC 1) (fun _ => RtoC 1)); reflexivity|].
    intros z. cbv beta. ring.
  - split.
    + eapply poly_ext; [|exact IH2]. intros z. cbn [ccheb2]. destruct (ccheb2 n z). reflexivity.
    + pose proof (poly_add _ _ _ _ _ (poly_scale _ _ _ (RtoC 2) (poly_z _ _ _ IH2))
        (poly_pads 2 _ _ _ (poly_scale _ _ _ (RtoC (-1)) IH1) ltac:(lia))) as Q.
      eapply poly_ext; [|eapply poly_lead; [|exact Q]].
      * intros z. cbv beta. cbn [ccheb2]. destruct (ccheb2 n z) as [a b]. cbn [fst snd].
        replace (RtoC (-1)) with (- RtoC 1)%C by (rewrite <- RtoC_opp; f_equal; lra). ring.
      * rewrite Cplus_0_r, <- RtoC_mult. reflexivity.
Qed.
Lemma poly_ccheb n : poly n (RtoC (cheb_lead n)) (ccheb n).
Proof. apply poly_ccheb2. Qed.

(** ** products over the upper half plane roots r and their conjugates *)
Lemma cprod_app l l' : cprod (l ++ l') = (cprod l * cprod l')%C.
Proof. induction l as [|c l IH]; cbn [app]; unfold cprod in *; cbn [fold_right]; [ring|]. rewrite IH. ring. Qed.
Definition rprod (l : list R) : R := fold_right Rmult 1 l.
Lemma rprod_app l l' : rprod (l ++ l') = rprod l * rprod l'.
Proof. induction l as [|c l IH]; simpl; [ring|]. rewrite IH. ring. Qed.
Lemma cprod_mod l : Cmod (cprod l) = rprod (map Cmod l).
Proof. induction l as [|c l IH]; unfold cprod, rprod in *; simpl; [apply Cmod_1|]. rewrite Cmod_mult, IH. reflexivity. Qed.

Lemma cmod2 (c : C) : Cmod c ^ 2 = fst c * fst c + snd c * snd c.
Proof. unfold Cmod. rewrite pow2_sqrt; [simpl; ring|]. apply Rplus_le_le_0_compat; apply pow2_ge_0. Qed.

Lemma upper_roots (rs : list C) (L : R) (f : C -> C) (z : R) :
  poly (2 * length rs) (RtoC L) f -> NoDup (map fst rs) -> List.Forall (fun r => 0 < snd r) rs ->
  List.Forall (fun r => f r = 0%C /\ f (Cconj r) = 0%C) rs ->
  f (RtoC z) = RtoC (L * rprod (map (fun r => Cmod (RtoC z - r)%C ^ 2) rs)).
Proof.
  intros P D U F.
  assert (NDm : forall g : C -> C, (forall c, fst (g c) = fst c) -> NoDup (map g rs)).
  { intros g Hg. apply (NoDup_map_inv fst). rewrite map_map. erewrite map_ext; [exact D|]. intros c. apply Hg. }
  rewrite (poly_roots (rs ++ map Cconj rs) (RtoC L) f).
  - rewrite map_app, cprod_app, map_map, RtoC_mult. f_equal. clear. induction rs as [|r rs IH].
    + unfold cprod, rprod. simpl. ring.
    + cbn [map]. unfold cprod, rprod in *. cbn [fold_right]. rewrite RtoC_mult, <- IH.
      replace (RtoC (Cmod (RtoC z - r)%C ^ 2)) with ((RtoC z - r) * (RtoC z - Cconj r))%C; [ring|].
      rewrite cmod2. destruct r as [x y]. apply injective_projections; simpl; ring.
  - rewrite app_length, map_length. replace (length rs + length rs)%nat with (2 * length rs)%nat by lia. exact P.
  - rewrite <- (map_id rs) at 1. 
    assert (NA : forall (l l' : list C), NoDup l -> NoDup l' -> (forall x, In x l -> ~ In x l') -> NoDup (l ++ l')).
    { induction l as [|a l IHl]; intros l' H1 H2 H3; [exact H2|]. inversion H1; subst. simpl. constructor.
      - rewrite in_app_iff. intros [Q|Q]; [contradiction|]. apply (H3 a); [left; reflexivity|exact Q].
      - apply IHl; auto. intros x Hx. apply H3. right. exact Hx. }
    apply NA; try (apply NDm; reflexivity). rewrite map_id.
    intros c H1 H2. rewrite Forall_forall in U. pose proof (U c H1) as U1. apply in_map_iff in H2. destruct H2 as [d [E Hd]].
    pose proof (U d Hd) as U2. subst c. simpl in U1. lra.
  - apply Forall_app. split; [|apply Forall_map]; eapply List.Forall_impl; try exact F; intros c [H1 H2]; assumption.
Qed.

(** ** the roots of the two families *)
(** theta_k = (2k+1) pi / (2n) *)
Definition theta (n k : nat) : R := INR (2 * k + 1) * PI / (2 * INR n).
Lemma theta_range n k : (k < n)%nat -> 0 < theta n k < PI.
Proof.
  intros H. pose proof PI_RGT_0 as P. assert (N : 0 < INR n) by (apply lt_0_INR; lia). unfold theta. split.
  - apply Rmult_lt_0_compat; [apply Rmult_lt_0_compat; [apply lt_0_INR; lia|exact P]|apply Rinv_0_lt_compat; lra].
  - apply Rmult_lt_reg_r with (2 * INR n); [lra|]. unfold Rdiv. rewrite Rmult_assoc, Rinv_l by lra. rewrite Rmult_1_r, Rmult_comm.
    apply Rmult_lt_compat_l; [exact P|]. replace (2 * INR n) with (INR (2 * n)) by (rewrite mult_INR; reflexivity).
    apply lt_INR. lia.
Qed.
Lemma theta_inj n k l : (k < n)%nat -> (l < n)%nat -> cos (theta n k) = cos (theta n l) -> k = l.
Proof.
  intros Hk Hl E. pose proof PI_RGT_0 as P. assert (N : 0 < INR n) by (apply lt_0_INR; lia).
  pose proof (theta_range n k Hk). pose proof (theta_range n l Hl).
  assert (Q : forall i j, (i < n)%nat -> (j < n)%nat -> (i < j)%nat -> cos (theta n j) < cos (theta n i)).
  { intros i j Hi Hj L. pose proof (theta_range n i Hi). pose proof (theta_range n j Hj). apply cos_decreasing_1; try lra.
    unfold theta. apply Rmult_lt_compat_r; [apply Rinv_0_lt_compat; lra|]. apply Rmult_lt_compat_r; [exact P|]. apply lt_INR. lia. }
  destruct (Nat.lt_total k l) as [L|[L|L]]; [|exact L|].
  - pose proof (Q _ _ Hk Hl L). lra.
  - pose proof (Q _ _ Hl Hk L). lra.
Qed.
Lemma n_theta n k : (0 < n)%nat -> INR n * theta n k = INR k * PI + PI / 2.
Proof.
  intros H. assert (N : 0 < INR n) by (apply lt_0_INR; lia). unfold theta. rewrite plus_INR, mult_INR. simpl. field. lra.
Qed.
Lemma cos_n_theta n k : (0 < n)%nat -> cos (INR n * theta n k) = 0.
Proof. intros H. rewrite n_theta by exact H. rewrite cos_plus, cos_PI2, sin_PI2.
  assert (S : sin (INR k * PI) = 0).
  { apply sin_eq_0_1. exists (Z.of_nat k). rewrite <- INR_IZR_INZ. reflexivity. }
  rewrite S. ring.
Qed.
Lemma sin_n_theta n k : (0 < n)%nat -> sin (INR n * theta n k) * sin (INR n * theta n k) = 1.
Proof.
  intros H. pose proof (sin2_cos2 (INR n * theta n k)) as Q. unfold Rsqr in Q. rewrite cos_n_theta in Q by exact H. lra.
Qed.

Lemma map_seq_nodup (f : nat -> R) n : (forall i j, (i < n)%nat -> (j < n)%nat -> f i = f j -> i = j) -> NoDup (map f (seq 0 n)).
Proof.
  intros H. assert (G : forall k m, (k + m <= n)%nat -> NoDup (map f (seq k m))).
  { intros k m. revert k. induction m as [|m IH]; intros k L; simpl; constructor.
    - intros Q. apply in_map_iff in Q. destruct Q as [j [E Hj]]. apply in_seq in Hj.
      apply H in E; lia.
    - apply IH. lia. }
  apply (G O n). lia.
Qed.

(** Butterworth: the 2n-th roots of -1 *)
Lemma bw_product n x : (0 < n)%nat ->
  rprod (map (fun k => Cmod (RtoC x - cis (theta n k))%C ^ 2) (seq 0 n)) = 1 + x ^ (2 * n).
Proof.
  intros Hn.
  pose proof (upper_roots (map (fun k => cis (theta n k)) (seq 0 n)) 1 (fun z => cpw z (2 * n) + RtoC 1)%C x) as U.
  rewrite map_length, seq_length in U. cbv beta in U. rewrite cpw_real, <- RtoC_plus, Rmult_1_l in U.
  assert (R : forall t, cos (INR n * t) = 0 -> (cpw (cis t) (2 * n) + RtoC 1)%C = 0%C).
  { intros t Ht. rewrite cpw_cis. rewrite mult_INR. replace (INR 2 * INR n * t) with (2 * (INR n * t)) by (simpl; ring).
    unfold cis. rewrite cos_2a_cos, sin_2a, Ht. apply injective_projections; simpl; ring. }
  symmetry. rewrite Rplus_comm. apply RtoC_inj. rewrite U.
  - rewrite map_map. reflexivity.
  - eapply poly_lead; [|apply (poly_add _ _ _ _ _ (poly_cpw (2 * n)) (poly_const (RtoC 1) (2 * n) ltac:(lia)))]. ring.
  - rewrite map_map. apply map_seq_nodup. intros i j Hi Hj E. apply (theta_inj n); assumption.
  - apply Forall_map, Forall_forall. intros k Hk. apply in_seq in Hk. simpl. pose proof (theta_range n k ltac:(lia)). apply sin_gt_0; lra.
  - apply Forall_map, Forall_forall. intros k Hk. split; [apply R; apply cos_n_theta; exact Hn|].
    replace (Cconj (cis (theta n k))) with (cis (- theta n k)) by (unfold cis, Cconj; simpl; rewrite cos_neg, sin_neg; reflexivity).
    apply R. rewrite <- (cos_neg (INR n * _)). replace (- (INR n * - theta n k)) with (INR n * theta n k) by ring.
    apply cos_n_theta. exact Hn.
Qed.

(** Chebyshev: the roots of T_n^2 + sinh^2 (n v) *)
Lemma cheb_product n v x : (0 < n)%nat -> 0 < v ->
  (cheb_lead n) ^ 2 * rprod (map (fun k => Cmod (RtoC x - ccos v (theta n k))%C ^ 2) (seq 0 n)) =
  cheb n x ^ 2 + sinh (INR n * v) ^ 2.
Proof.
  intros Hn Hv.
  assert (SP : forall u, 0 < u -> 0 < sinh u).
  { intros u Hu. unfold sinh. pose proof (exp_increasing (- u) u ltac:(lra)). lra. }
  assert (CP : 0 < cosh v) by (unfold cosh; pose proof (exp_pos v); pose proof (exp_pos (- v)); lra).
  pose proof (upper_roots (map (fun k => ccos v (theta n k)) (seq 0 n)) (cheb_lead n ^ 2)
    (fun z => ccheb n z * ccheb n z + RtoC (sinh (INR n * v) ^ 2))%C x) as U.
  rewrite map_length, seq_length in U. cbv beta in U. rewrite ccheb_real, <- RtoC_mult, <- RtoC_plus in U.
  assert (R : forall w t, cos (INR n * t) = 0 -> sin (INR n * t) * sin (INR n * t) = 1 ->
     sinh (INR n * w) * sinh (INR n * w) = sinh (INR n * v) * sinh (INR n * v) ->
     (ccheb n (ccos w t) * ccheb n (ccos w t) + RtoC (sinh (INR n * v) ^ 2))%C = 0%C).
  { intros w t Ht Hs Hw. rewrite ccheb_ccos. unfold ccos. rewrite Ht. apply injective_projections; simpl.
    - rewrite !Rmult_0_r, Rmult_1_r. replace (0 - sinh (INR n * w) * sin (INR n * t) * (sinh (INR n * w) * sin (INR n * t)))
        with (- (sinh (INR n * w) * sinh (INR n * w)) * (sin (INR n * t) * sin (INR n * t))) by ring. rewrite Hw, Hs. ring.
    - ring. }
  replace (cheb n x ^ 2) with (cheb n x * cheb n x) by ring.
  symmetry. apply RtoC_inj. rewrite U.
  - rewrite map_map. reflexivity.
  - pose proof (poly_add _ _ _ _ _ (poly_mul _ _ _ _ _ _ (poly_ccheb n) (poly_ccheb n))
      (poly_const (RtoC (sinh (INR n * v) ^ 2)) (n + n) ltac:(lia))) as Q.
    replace (2 * n)%nat with (n + n)%nat by lia. eapply poly_lead; [|exact Q]. rewrite Cplus_0_r, <- RtoC_mult. f_equal. ring.
  - rewrite map_map. apply map_seq_nodup. intros i j Hi Hj E. cbn [fst ccos] in E. apply (theta_inj n); try assumption.
    apply Rmult_eq_reg_l in E; [exact E|lra].
  - apply Forall_map, Forall_forall. intros k Hk. apply in_seq in Hk. cbn [snd ccos]. pose proof (theta_range n k ltac:(lia)).
    apply Rmult_lt_0_compat; [apply SP, Hv|apply sin_gt_0; lra].
  - apply Forall_map, Forall_forall. intros k Hk. split.
    + apply R; [apply cos_n_theta; exact Hn|apply sin_n_theta; exact Hn|reflexivity].
    + replace (Cconj (ccos v (theta n k))) with (ccos (- v) (theta n k)).
      * apply R; [apply cos_n_theta; exact Hn|apply sin_n_theta; exact Hn|].
        replace (INR n * - v) with (- (INR n * v)) by ring. unfold sinh. rewrite Ropp_involutive. field.
      * unfold ccos, Cconj, cosh, sinh. cbn [fst snd]. rewrite Ropp_involutive. f_equal; field.
Qed.
(** the zeros of T_n *)
Lemma cheb_zeros n x : (0 < n)%nat ->
  cheb n x = cheb_lead n * rprod (map (fun k => x - cos (theta n k)) (seq 0 n)).
Proof.
  intros Hn. apply RtoC_inj. rewrite <- ccheb_real.
  rewrite (poly_roots (map (fun k => RtoC (cos (theta n k))) (seq 0 n)) (RtoC (cheb_lead n))).
  - rewrite RtoC_mult. f_equal. rewrite map_map. induction (seq 0 n) as [|k l IH]; [reflexivity|].
    cbn [map]. unfold cprod, rprod in *. cbn [fold_right]. rewrite RtoC_mult, IH, RtoC_minus. reflexivity.
  - rewrite map_length, seq_length. apply poly_ccheb.
  - rewrite <- (map_map (fun k => cos (theta n k)) RtoC). apply FinFun.Injective_map_NoDup; [intros a b; apply RtoC_inj|].
    apply map_seq_nodup. intros i j Hi Hj E. apply (theta_inj n); assumption.
  - apply Forall_map, Forall_forall. intros k Hk.
    replace (RtoC (cos (theta n k))) with (ccos 0 (theta n k)).
    + rewrite ccheb_ccos. unfold ccos. rewrite cos_n_theta by exact Hn. rewrite (Rmult_0_r (INR n)), sinh_0. apply injective_projections; simpl; ring.
    + unfold ccos. rewrite cosh_0, sinh_0. apply injective_projections; simpl; ring.
Qed.

(** ** n points in conjugate pairs, a middle one when n is odd *)
Lemma fold_pairs {A} (op : A -> A -> A) (e : A) (Hc : forall a b, op a b = op b a) (Ha : forall a b c, op a (op b c) = op (op a b) c)
  (He : forall a, op e a = a) : forall n (g : nat -> A),
  fold_right op e (map g (seq 0 n)) =
  op (fold_right op e (map (fun i => op (g i) (g (n - 1 - i)%nat)) (seq 0 (n / 2)))) (if Nat.odd n then g (n / 2)%nat else e).
Proof.
  assert (He' : forall a, op a e = a) by (intros; rewrite Hc; apply He).
  assert (AP : forall l l', fold_right op e (l ++ l') = op (fold_right op e l) (fold_right op e l')).
  { induction l as [|a l IH]; intros l'; simpl; [symmetry; apply He|]. rewrite IH. apply Ha. }
  assert (G : forall n, (forall g, fold_right op e (map g (seq 0 n)) =
     op (fold_right op e (map (fun i => op (g i) (g (n - 1 - i)%nat)) (seq 0 (n / 2)))) (if Nat.odd n then g (n / 2)%nat else e)) /\
     (forall g, fold_right op e (map g (seq 0 (S n))) =
     op (fold_right op e (map (fun i => op (g i) (g (S n - 1 - i)%nat)) (seq 0 (S n / 2)))) (if Nat.odd (S n) then g (S n / 2)%nat else e))).
  { induction n as [|n [IH1 IH2]].
    - split; intros g; simpl; [symmetry; apply He|]. rewrite He, He'. reflexivity.
    - split; [exact IH2|]. intros g.
      assert (D : (S (S n) / 2 = S (n / 2))%nat).
      { replace (S (S n)) with (n + 1 * 2)%nat by lia. rewrite Nat.div_add by lia. lia. }
      rewrite D. replace (Nat.odd (S (S n))) with (Nat.odd n) by reflexivity.
      replace (seq 0 (S (S n))) with (0%nat :: seq 1 n ++ [S n]).
      2:{ change (seq 0 (S (S n))) with (0%nat :: seq 1 (S n)). f_equal. rewrite seq_S. reflexivity. }
      cbn [map fold_right]. rewrite map_app, AP. cbn [map fold_right].
      rewrite <- seq_shift, map_map, (IH1 (fun i => g (S i))).
      cbn [seq map fold_right]. rewrite <- (seq_shift (n / 2) 0), map_map.
      replace (S (S n) - 1 - 0)%nat with (S n) by lia.
      replace (map (fun x => op (g (S x)) (g (S (S n) - 1 - S x)%nat)) (seq 0 (n / 2)))
        with (map (fun i => op (g (S i)) (g (S (n - 1 - i)))) (seq 0 (n / 2))).
      + rewrite He'. set (F := fold_right op e _). set (mid := if Nat.odd n then g (S (n / 2)) else e).
        rewrite (Hc (op F mid)). rewrite !Ha. rewrite <- (Ha (op (g 0%nat) (g (S n))) F mid). reflexivity.
      + apply map_ext_in. intros i Hi. apply in_seq in Hi. f_equal. f_equal.
        assert (i < n)%nat by (pose proof (Nat.div_le_upper_bound n 2 n); pose proof (Nat.div_lt n 2); destruct n; [simpl in Hi; lia|]; pose proof (Nat.div_lt (S n) 2); lia).
        lia. }
  intros n g. apply G.
Qed.
Lemma rprod_fold n (g : nat -> R) :
  rprod (map g (seq 0 n)) =
  rprod (map (fun i => g i * g (n - 1 - i)%nat) (seq 0 (n / 2))) * (if Nat.odd n then g (n / 2)%nat else 1).
Proof. apply (fold_pairs Rmult 1); intros; ring. Qed.
