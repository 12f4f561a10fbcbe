(** Proofs: the analog prototypes in exact arithmetic and the magnitude of their transfer functions. *)
From Coq Require Import ZArith List Bool Reals Lra Lia.
From Coquelicot Require Import Coquelicot.
From Verif Require Import Num Outcome Types Transforms Butterworth Chebyshev Exact RealNum SigSpec ChebSpec
  RespProofs PZProofs RBJProofs CoefLemmas BuildProofs PolyProofs MapProofs TransProofs.
Import ListNotations.
Local Open Scope R_scope.

(** ** magnitudes *)
Definition facs (a b : C) (zs : list (option C)) : C := cprod (map (fun z => fac z a b) zs).
Lemma dens_facs a b qs : dens a b qs = facs a b (map (fun q : apt => Some (fst q)) qs).
Proof. unfold dens, facs. rewrite map_map. reflexivity. Qed.
Lemma nums_facs a b qs : nums a b qs = facs a b (map snd qs).
Proof. unfold nums, facs. rewrite map_map. reflexivity. Qed.

(** n points: n/2 conjugate pairs and, for odd n, a middle one *)
Definition pts_of (n : nat) (q : nat -> apt) : list apt := map q (seq 0 (n / 2)).
Definition sg_of (n : nat) (q : apt) : option apt := if Nat.odd n then Some q else None.
Lemma flat_length n q q0 : length (flat (pts_of n q) (sg_of n q0)) = n.
Proof.
  unfold flat, pts_of, sg_of. rewrite app_length.
  assert (E : forall l : list nat, length (flat_map (fun q => [q; conj_apt q]) (map q l)) = (2 * length l)%nat).
  { induction l as [|a l IH]; [reflexivity|]. cbn [map flat_map app length]. rewrite IH. lia. }
  rewrite E, seq_length. pose proof (Nat.div_mod n 2). rewrite <- Nat.bit0_mod in H. rewrite Nat.bit0_odd in H.
  destruct (Nat.odd n); simpl in *; lia.
Qed.
Lemma facs_fold (h : apt -> option C) (hc : forall q, h (conj_apt q) = option_map Cconj (h q)) n q q0 (g : nat -> R) x y :
  (forall i, (i < n / 2)%nat ->
     Cmod (fac (h (q i)) (0%R, x) (RtoC y)) * Cmod (fac (option_map Cconj (h (q i))) (0%R, x) (RtoC y)) = g i * g (n - 1 - i)%nat) ->
  (Nat.odd n = true -> Cmod (fac (h q0) (0%R, x) (RtoC y)) = g (n / 2)%nat) ->
  Cmod (facs (0%R, x) (RtoC y) (map h (flat (pts_of n q) (sg_of n q0)))) = rprod (map g (seq 0 n)).
Proof.
  intros H H0. rewrite rprod_fold. unfold facs, flat. rewrite !map_app, cprod_app, Cmod_mult. f_equal.
  - unfold pts_of. rewrite cprod_mod, !map_map.
    assert (G : forall l, (forall i, In i l -> (i < n / 2)%nat) ->
      rprod (map (fun z => Cmod (fac (h z) (0%R, x) (RtoC y))) (flat_map (fun q => [q; conj_apt q]) (map q l))) =
      rprod (map (fun i => g i * g (n - 1 - i)%nat) l)).
    { induction l as [|i l IH]; intros Hl; [reflexivity|]. cbn [map flat_map app]. unfold rprod in *. cbn [fold_right].
      rewrite IH by (intros j Hj; apply Hl; right; exact Hj).
      rewrite <- (H i) by (apply Hl; left; reflexivity). rewrite hc. ring. }
    rewrite G; [reflexivity|]. intros i Hi. apply in_seq in Hi. lia.
  - unfold sg_of. destruct (Nat.odd n); cbn [map].
    + rewrite cprod_cons. unfold cprod. cbn [fold_right]. rewrite Cmult_1_r. apply H0. reflexivity.
    + unfold cprod. simpl. apply Cmod_1.
Qed.

Definition ci : C := (0, 1).
(** points s = i r *)
Lemma cmod_rot (r : C) x y : Cmod (fac (Some (ci * r)%C) (0%R, x) (RtoC y)) = Cmod (RtoC x - r * RtoC y)%C.
Proof.
  unfold fac. replace ((0%R, x) - ci * r * RtoC y)%C with (ci * (RtoC x - r * RtoC y))%C.
  - rewrite Cmod_mult. replace (Cmod ci) with 1; [ring|]. unfold Cmod, ci. simpl. rewrite <- sqrt_1 at 1. f_equal. ring.
  - destruct r as [a b]. apply injective_projections; simpl; ring.
Qed.
Lemma conj_rot (r : C) : Cconj (ci * r)%C = (ci * - Cconj r)%C.
Proof. destruct r as [a b]. apply injective_projections; simpl; ring. Qed.
(** [h q] is i r or its conjugate *)
Lemma facs_rot (h : apt -> option C) (hc : forall q, h (conj_apt q) = option_map Cconj (h q)) n q q0 (r : nat -> C) x y :
  (forall i, (i < n / 2)%nat -> h (q i) = Some (ci * r i)%C \/ h (q i) = Some (Cconj (ci * r i)%C)) ->
  (forall i, (i < n / 2)%nat -> r (n - 1 - i)%nat = (- Cconj (r i))%C) ->
  (Nat.odd n = true -> h q0 = Some (ci * r (n / 2)%nat)%C) ->
  Cmod (facs (0%R, x) (RtoC y) (map h (flat (pts_of n q) (sg_of n q0)))) ^ 2 =
  rprod (map (fun k => Cmod (RtoC x - r k * RtoC y)%C ^ 2) (seq 0 n)).
Proof.
  intros H S H0. rewrite (facs_fold h hc n q q0 (fun k => Cmod (RtoC x - r k * RtoC y)%C)).
  - induction (seq 0 n) as [|k l IH]; unfold rprod in *; cbn [map fold_right]; [simpl; ring|]. rewrite Rpow_mult_distr, IH. reflexivity.
  - intros i Hi. rewrite (S i Hi).
    destruct (H i Hi) as [E|E]; rewrite E; cbn [option_map]; rewrite ?cconj_conj, ?conj_rot, !cmod_rot; ring.
  - intros O. rewrite (H0 O). apply cmod_rot.
Qed.
Lemma facs_none (h : apt -> option C) (a : C) y qs : List.Forall (fun q => h q = None) qs ->
  facs a (RtoC y) (map h qs) = RtoC (y ^ length qs).
Proof.
  intros F. unfold facs. induction F as [|q l Hq F IH]; cbn [map length pow]; [reflexivity|].
  rewrite cprod_cons, IH, Hq. cbn [fac]. rewrite RtoC_mult. reflexivity.
Qed.

Lemma rprod_scale (g : nat -> R) a l : rprod (map (fun k => a * g k) l) = a ^ length l * rprod (map g l).
Proof. induction l as [|k l IH]; unfold rprod in *; cbn [map fold_right length pow]; [ring|]. rewrite IH. ring. Qed.
Lemma rprod_const a l : rprod (map (fun _ : nat => a) l) = a ^ length l.
Proof. induction l as [|k l IH]; unfold rprod in *; cbn [map fold_right length pow]; [ring|]. rewrite IH. ring. Qed.
Lemma cmod_scaled (r : C) x y : y <> 0 -> Cmod (RtoC x - r * RtoC y)%C ^ 2 = y ^ 2 * Cmod (RtoC (x / y) - r)%C ^ 2.
Proof. intros H. rewrite !cmod2. destruct r as [a b]. simpl. field. exact H. Qed.
Lemma prod_scaled (r : nat -> C) n x y : y <> 0 ->
  rprod (map (fun k => Cmod (RtoC x - r k * RtoC y)%C ^ 2) (seq 0 n)) =
  y ^ (2 * n) * rprod (map (fun k => Cmod (RtoC (x / y) - r k)%C ^ 2) (seq 0 n)).
Proof.
  intros H. rewrite <- (seq_length n 0) at 2. rewrite pow_mult, <- rprod_scale. f_equal. apply map_ext. intros k.
  apply cmod_scaled. exact H.
Qed.
Lemma prod_zero (r : nat -> C) n x :
  rprod (map (fun k => Cmod (RtoC x - r k * RtoC 0)%C ^ 2) (seq 0 n)) = x ^ (2 * n).
Proof.
  rewrite pow_mult. rewrite <- (seq_length n 0) at 2. rewrite <- rprod_const. f_equal. apply map_ext. intros k.
  rewrite Cmult_0_r. unfold Cminus. rewrite Copp_0, Cplus_0_r, Cmod_R. apply pow2_abs.
Qed.

(** theta_(n-1-i) = pi - theta_i *)
Lemma theta_mirror n i : (i < n)%nat -> theta n (n - 1 - i) = PI - theta n i.
Proof.
  intros H. unfold theta. assert (N : 0 < INR n) by (apply lt_0_INR; lia).
  replace (INR (2 * (n - 1 - i) + 1)) with (2 * INR n - INR (2 * i + 1)).
  - field. lra.
  - replace (2 * INR n) with (INR (2 * n)) by (rewrite mult_INR; reflexivity). rewrite <- minus_INR by lia. f_equal. lia.
Qed.
Lemma theta_mid n : Nat.odd n = true -> theta n (n / 2) = PI / 2.
Proof.
  intros H. unfold theta. assert (E : (2 * (n / 2) + 1 = n)%nat).
  { pose proof (Nat.div_mod n 2 ltac:(lia)) as D. rewrite <- Nat.bit0_mod, Nat.bit0_odd, H in D. simpl in *. lia. }
  rewrite E. assert (N : 0 < INR n) by (apply lt_0_INR; lia). field. lra.
Qed.
Lemma cis_mirror t : cis (PI - t) = (- Cconj (cis t))%C.
Proof. unfold cis. rewrite sin_PI_x. replace (PI - t) with (- t + PI) by ring. rewrite neg_cos, cos_neg. apply injective_projections; simpl; ring. Qed.
Lemma ccos_mirror v t : ccos v (PI - t) = (- Cconj (ccos v t))%C.
Proof. unfold ccos. rewrite sin_PI_x. replace (PI - t) with (- t + PI) by ring. rewrite neg_cos, cos_neg. apply injective_projections; simpl; ring. Qed.
Lemma half_lt n i : (i < n / 2)%nat -> (i < n)%nat.
Proof. intros H. pose proof (Nat.div_le_upper_bound n 2 n ltac:(lia)). lia. Qed.
Lemma hc_pole q : Some (fst (conj_apt q)) = option_map Cconj (Some (fst q)). Proof. reflexivity. Qed.
Lemma hc_zero q : snd (conj_apt q) = option_map Cconj (snd q). Proof. reflexivity. Qed.

(** scaled Butterworth circle: radius rho *)
Lemma bw_facs (h : apt -> option C) (hc : forall q, h (conj_apt q) = option_map Cconj (h q)) n q q0 rho x y : (0 < n)%nat ->
  (forall i, (i < n / 2)%nat -> h (q i) = Some (ci * (RtoC rho * cis (theta n i)))%C \/
                                h (q i) = Some (Cconj (ci * (RtoC rho * cis (theta n i)))%C)) ->
  (Nat.odd n = true -> h q0 = Some (RtoC (- rho))) ->
  Cmod (facs (0%R, x) (RtoC y) (map h (flat (pts_of n q) (sg_of n q0)))) ^ 2 = x ^ (2 * n) + (rho * y) ^ (2 * n).
Proof.
  intros Hn H H0. rewrite (facs_rot h hc n q q0 (fun k => RtoC rho * cis (theta n k))%C).
  - assert (E : forall k, Cmod (RtoC x - RtoC rho * cis (theta n k) * RtoC y)%C = Cmod (RtoC x - cis (theta n k) * RtoC (rho * y))%C).
    { intros k. f_equal. rewrite RtoC_mult. ring. }
    erewrite map_ext; [|intros k; rewrite E; reflexivity].
    destruct (Req_dec (rho * y) 0) as [Z|Z].
    + rewrite Z. rewrite prod_zero. rewrite (pow_i (2 * n)) by lia. ring.
    + rewrite prod_scaled by exact Z. rewrite bw_product by exact Hn. rewrite Rmult_plus_distr_l, <- Rpow_mult_distr.
      replace (rho * y * (x / (rho * y))) with x by (field; split; intros Q; apply Z; rewrite Q; ring). ring.
  - exact H.
  - intros i Hi. rewrite theta_mirror by (apply half_lt, Hi). rewrite cis_mirror.
    set (c := cis (theta n i)). destruct c as [a b]. apply injective_projections; simpl; ring.
  - intros O. rewrite (H0 O), (theta_mid n O). unfold cis. rewrite cos_PI2, sin_PI2. f_equal.
    apply injective_projections; simpl; ring.
Qed.
Lemma flat_none n q q0 : (forall i, snd (q i) = None) -> snd q0 = None ->
  List.Forall (fun q : apt => snd q = None) (flat (pts_of n q) (sg_of n q0)).
Proof.
  intros H H0. unfold flat. apply Forall_app. split.
  - unfold pts_of. induction (seq 0 (n / 2)) as [|i l IH]; [constructor|]. cbn [map flat_map app].
    constructor; [apply H|]. constructor; [unfold conj_apt; cbn [snd]; rewrite H; reflexivity|exact IH].
  - unfold sg_of. destruct (Nat.odd n); constructor; [exact H0|constructor].
Qed.

Lemma mag_sq qs x y : mag qs x y ^ 2 =
  Cmod (facs (0%R, x) (RtoC y) (map snd qs)) ^ 2 / Cmod (facs (0%R, x) (RtoC y) (map (fun q : apt => Some (fst q)) qs)) ^ 2.
Proof.
  unfold mag. rewrite nums_facs, dens_facs. unfold Rdiv. rewrite Rpow_mult_distr. f_equal. apply pow_inv.
Qed.

(** ** the points of the three low pass prototypes *)
Definition bw_q (n i : nat) : apt := (cis (PI / 2 + theta n i), None).
Definition bw_q0 : apt := (RtoC (-1), None).
Definition c1_q (n : nat) (v : R) (i : nat) : apt := (Cconj (ci * ccos v (theta n i))%C, None).
Definition c1_q0 (v : R) : apt := (RtoC (- sinh v), None).
Definition c2_q (n : nat) (v : R) (i : nat) : apt :=
  ((/ (ci * ccos v (theta n i)))%C, Some (0, / cos (theta n i))).
Definition c2_q0 (v : R) : apt := (RtoC (/ - sinh v), None).

Lemma bw_q_rot n i : fst (bw_q n i) = (ci * (RtoC 1 * cis (theta n i)))%C.
Proof. unfold bw_q. cbn [fst]. rewrite cis_add. unfold cis. rewrite cos_PI2, sin_PI2. apply injective_projections; simpl; ring. Qed.
Lemma bw_mag n x y : (0 < n)%nat ->
  mag (flat (pts_of n (bw_q n)) (sg_of n bw_q0)) x y ^ 2 = y ^ (2 * n) / (x ^ (2 * n) + y ^ (2 * n)).
Proof.
  intros Hn. rewrite mag_sq. rewrite (bw_facs _ hc_pole n (bw_q n) bw_q0 1 x y Hn).
  - rewrite facs_none by (apply flat_none; reflexivity). rewrite flat_length, Cmod_R, pow2_abs, <- pow_mult, Rmult_1_l.
    rewrite (Nat.mul_comm n 2). reflexivity.
  - intros i _. left. rewrite bw_q_rot. reflexivity.
  - intros _. unfold bw_q0. cbn [fst]. reflexivity.
Qed.

Lemma cheb_lead_pos n : 0 < cheb_lead n.
Proof. destruct n; simpl; [lra|]. apply pow_lt. lra. Qed.
Lemma sinh_lt u : 0 < u -> 0 < sinh u.
Proof. intros Hu. unfold sinh. pose proof (exp_increasing (- u) u ltac:(lra)). lra. Qed.
Lemma cheb_prod' n v x y : (0 < n)%nat -> 0 < v -> y <> 0 ->
  rprod (map (fun k => Cmod (RtoC x - ccos v (theta n k) * RtoC y)%C ^ 2) (seq 0 n)) =
  y ^ (2 * n) * (cheb n (x / y) ^ 2 + sinh (INR n * v) ^ 2) / cheb_lead n ^ 2.
Proof.
  intros Hn Hv Hy. rewrite prod_scaled by exact Hy. rewrite <- (cheb_product n v (x / y) Hn Hv).
  pose proof (cheb_lead_pos n). field. lra.
Qed.
Lemma c1_dens n v x y : (0 < n)%nat ->
  Cmod (facs (0%R, x) (RtoC y) (map (fun q : apt => Some (fst q)) (flat (pts_of n (c1_q n v)) (sg_of n (c1_q0 v))))) ^ 2 =
  rprod (map (fun k => Cmod (RtoC x - ccos v (theta n k) * RtoC y)%C ^ 2) (seq 0 n)).
Proof.
  intros Hn. apply (facs_rot (fun q : apt => Some (fst q)) hc_pole n (c1_q n v) (c1_q0 v) (fun k => ccos v (theta n k))).
  - intros i _. right. reflexivity.
  - intros i Hi. rewrite theta_mirror by (apply half_lt, Hi). apply ccos_mirror.
  - intros O. rewrite (theta_mid n O). unfold c1_q0, ccos. cbn [fst]. rewrite cos_PI2, sin_PI2. f_equal.
    apply injective_projections; simpl; ring.
Qed.
(** sinh (n v) = 1/eps *)
Lemma c1_mag n v x y : (0 < n)%nat -> 0 < v -> y <> 0 ->
  mag (flat (pts_of n (c1_q n v)) (sg_of n (c1_q0 v))) x y ^ 2 =
  cheb_lead n ^ 2 / (cheb n (x / y) ^ 2 + sinh (INR n * v) ^ 2).
Proof.
  intros Hn Hv Hy. rewrite mag_sq, c1_dens by exact Hn. rewrite cheb_prod' by assumption.
  rewrite facs_none by (apply flat_none; reflexivity). rewrite flat_length, Cmod_R, pow2_abs, <- pow_mult, (Nat.mul_comm n 2).
  pose proof (cheb_lead_pos n). assert (0 < sinh (INR n * v)) by (apply sinh_lt, Rmult_lt_0_compat; [apply lt_0_INR; lia|exact Hv]).
  assert (y ^ (2 * n) <> 0) by (apply pow_nonzero; exact Hy).
  assert (0 < cheb n (x / y) ^ 2 + sinh (INR n * v) ^ 2) by (pose proof (pow2_ge_0 (cheb n (x / y))); pose proof (pow_lt _ 2 H0); lra).
  field. repeat split; lra.
Qed.
Lemma c1_mag0 n v x : (0 < n)%nat -> mag (flat (pts_of n (c1_q n v)) (sg_of n (c1_q0 v))) x 0 = 0.
Proof.
  intros Hn. unfold mag. rewrite nums_facs, facs_none by (apply flat_none; reflexivity).
  rewrite flat_length, pow_i by exact Hn. rewrite Cmod_0. unfold Rdiv. ring.
Qed.

(** Chebyshev II: poles 1/(i r) up to conjugation, zeros i/cos theta *)
Lemma ccos_nz n v i : (i < n)%nat -> 0 < v -> ccos v (theta n i) <> 0%C.
Proof.
  intros Hi Hv Q. apply (f_equal snd) in Q. cbn in Q. pose proof (theta_range n i Hi) as T.
  pose proof (sinh_lt v Hv). assert (0 < sin (theta n i)) by (apply sin_gt_0; lra). nra.
Qed.
Lemma ci_nz : ci <> 0%C. Proof. intros Q. apply (f_equal snd) in Q. simpl in Q. lra. Qed.
Lemma cinv_rot (r : C) x y : r <> 0%C ->
  Cmod (fac (Some (/ (ci * r))%C) (0%R, x) (RtoC y)) = Cmod (RtoC y - Cconj r * RtoC (- x))%C / Cmod r.
Proof.
  intros Hr. pose proof (c_neq0 r Hr) as NZ.
  assert (S : 0 < Cmod r) by (apply Cmod_gt_0; exact Hr).
  assert (E : Cmod (fac (Some (/ (ci * r))%C) (0%R, x) (RtoC y)) * Cmod r = Cmod (RtoC y - Cconj r * RtoC (- x))%C).
  { rewrite <- Cmod_mult. transitivity (Cmod (Cconj (RtoC y - Cconj r * RtoC (- x))%C)).
    - assert (F : (fac (Some (/ (ci * r))%C) (0%R, x) (RtoC y) * r = ci * Cconj (RtoC y - Cconj r * RtoC (- x))%C)%C).
      { unfold fac. destruct r as [a b]. cbn [fst snd] in NZ. apply injective_projections; simpl; field; lra. }
      rewrite F, Cmod_mult. replace (Cmod ci) with 1; [ring|]. unfold Cmod, ci. simpl. rewrite <- sqrt_1 at 1. f_equal. ring.
    - apply cmod_conj. }
  rewrite <- E. field. lra.
Qed.
Lemma cmod_eq (z w : C) : fst z ^ 2 + snd z ^ 2 = fst w ^ 2 + snd w ^ 2 -> Cmod z = Cmod w.
Proof. intros H. unfold Cmod. rewrite H. reflexivity. Qed.
Lemma rprod_div (g h : nat -> R) l : rprod (map (fun k => g k / h k) l) = rprod (map g l) / rprod (map h l).
Proof.
  induction l as [|k l IH]; unfold rprod in *; cbn [map fold_right]; [field|]. rewrite IH. unfold Rdiv. rewrite Rinv_mult. ring.
Qed.
Lemma rprod_ext_in (g h : nat -> R) l : (forall k, In k l -> g k = h k) -> rprod (map g l) = rprod (map h l).
Proof. intros H. f_equal. apply map_ext_in. exact H. Qed.
Lemma rprod_sq (g : nat -> R) l : rprod (map g l) ^ 2 = rprod (map (fun k => g k ^ 2) l).
Proof. induction l as [|k l IH]; unfold rprod in *; cbn [map fold_right]; [ring|]. rewrite <- IH. ring. Qed.
Lemma rprod_pos (g : nat -> R) l : (forall k, In k l -> 0 < g k) -> 0 < rprod (map g l).
Proof.
  induction l as [|k l IH]; intros H; unfold rprod in *; cbn [map fold_right]; [lra|].
  apply Rmult_lt_0_compat; [apply H; left; reflexivity|apply IH; intros j Hj; apply H; right; exact Hj].
Qed.
Lemma rprod_abs (g : nat -> R) l : rprod (map (fun k => Rabs (g k)) l) = Rabs (rprod (map g l)).
Proof. induction l as [|k l IH]; unfold rprod in *; cbn [map fold_right]; [symmetry; apply Rabs_R1|]. rewrite IH, Rabs_mult. reflexivity. Qed.

Lemma rdiv_sq a b : (a / b) ^ 2 = a ^ 2 / b ^ 2.
Proof. unfold Rdiv. rewrite Rpow_mult_distr, pow_inv. reflexivity. Qed.
Definition c2_PR (n : nat) (v : R) : R := rprod (map (fun k => Cmod (ccos v (theta n k))) (seq 0 n)).
Definition c2_zc (n k : nat) : R := if (2 * k + 1 =? n)%nat then 1 else Rabs (cos (theta n k)).
Definition c2_PZ (n : nat) : R := rprod (map (c2_zc n) (seq 0 n)).
Lemma cos_theta_nz n k : (k < n)%nat -> (2 * k + 1 <> n)%nat -> cos (theta n k) <> 0.
Proof.
  intros Hk Hm. pose proof (theta_range n k Hk) as T. unfold theta in *. set (N := INR n) in *.
  assert (NP : 0 < N) by (apply lt_0_INR; lia).
  destruct (Nat.lt_total (2 * k + 1) n) as [L|[E|L]]; [|lia|]; apply lt_INR in L; fold N in L.
  - apply Rgt_not_eq, cos_gt_0; [pose proof PI_RGT_0; lra|]. apply Rmult_lt_reg_r with (2 * N); [lra|].
    replace (INR (2 * k + 1) * PI / (2 * N) * (2 * N)) with (INR (2 * k + 1) * PI) by (field; lra).
    replace (PI / 2 * (2 * N)) with (N * PI) by field. apply Rmult_lt_compat_r; [apply PI_RGT_0|exact L].
  - apply Rlt_not_eq, cos_lt_0; [|pose proof PI_RGT_0; lra]. apply Rmult_lt_reg_r with (2 * N); [lra|].
    replace (INR (2 * k + 1) * PI / (2 * N) * (2 * N)) with (INR (2 * k + 1) * PI) by (field; lra).
    replace (PI / 2 * (2 * N)) with (N * PI) by field. apply Rmult_lt_compat_r; [apply PI_RGT_0|exact L].
Qed.
Lemma c2_PR_pos n v : 0 < v -> 0 < c2_PR n v.
Proof. intros Hv. apply rprod_pos. intros k Hk. apply in_seq in Hk. apply Cmod_gt_0, ccos_nz; [lia|exact Hv]. Qed.
Lemma c2_PZ_pos n : 0 < c2_PZ n.
Proof.
  apply rprod_pos. intros k Hk. apply in_seq in Hk. unfold c2_zc. destruct (Nat.eqb_spec (2 * k + 1) n) as [_|H]; [lra|].
  apply Rabs_pos_lt, cos_theta_nz; lia.
Qed.
Lemma half_odd n i : (i < n / 2)%nat -> (2 * i + 1 < n)%nat.
Proof. intros H. pose proof (Nat.div_mod n 2 ltac:(lia)). pose proof (Nat.mod_upper_bound n 2). lia. Qed.
Lemma odd_half n : Nat.odd n = true -> (2 * (n / 2) + 1 = n)%nat.
Proof. intros H. pose proof (Nat.div_mod n 2 ltac:(lia)) as D. rewrite <- Nat.bit0_mod, Nat.bit0_odd, H in D. simpl in *. lia. Qed.

Lemma c2_dens n v x y : (0 < n)%nat -> 0 < v ->
  Cmod (facs (0%R, x) (RtoC y) (map (fun q : apt => Some (fst q)) (flat (pts_of n (c2_q n v)) (sg_of n (c2_q0 v))))) ^ 2 =
  rprod (map (fun k => Cmod (RtoC y - ccos v (theta n k) * RtoC x)%C ^ 2) (seq 0 n)) / c2_PR n v ^ 2.
Proof.
  intros Hn Hv.
  rewrite (facs_fold (fun q : apt => Some (fst q)) hc_pole n (c2_q n v) (c2_q0 v)
    (fun k => Cmod (RtoC y - ccos v (theta n k) * RtoC x)%C / Cmod (ccos v (theta n k)))).
  - rewrite rprod_div. unfold c2_PR. rewrite <- rprod_sq. unfold Rdiv. rewrite Rpow_mult_distr, pow_inv. reflexivity.
  - intros i Hi. pose proof (half_lt _ _ Hi) as Hi'. rewrite theta_mirror by exact Hi'. rewrite ccos_mirror.
    unfold c2_q. cbn [fst option_map]. set (r := ccos v (theta n i)). assert (Hr : r <> 0%C) by (apply ccos_nz; assumption).
    assert (E : Cconj (/ (ci * r))%C = (/ (ci * - Cconj r))%C).
    { pose proof (c_neq0 r Hr) as NZ. destruct r as [a b]. cbn [fst snd] in NZ. apply injective_projections; simpl; field; lra. }
    assert (Hr' : (- Cconj r)%C <> 0%C).
    { intros Q. apply Hr. rewrite <- (cconj_conj r). replace (Cconj r) with (- - Cconj r)%C by ring. rewrite Q.
      apply injective_projections; simpl; ring. }
    rewrite E, (cinv_rot r) by exact Hr. rewrite (cinv_rot (- Cconj r)%C) by exact Hr'.
    rewrite Cmod_opp, cmod_conj.
    replace (Cmod (RtoC y - Cconj r * RtoC (- x))%C) with (Cmod (RtoC y - - Cconj r * RtoC x)%C) by (apply cmod_eq; destruct r; simpl; ring).
    replace (Cmod (RtoC y - Cconj (- Cconj r) * RtoC (- x))%C) with (Cmod (RtoC y - r * RtoC x)%C) by (apply cmod_eq; destruct r; simpl; ring).
    ring.
  - intros O. rewrite (theta_mid n O). unfold c2_q0, ccos. cbn [fst]. rewrite cos_PI2, sin_PI2, Rmult_0_r, Rmult_1_r.
    pose proof (sinh_lt v Hv). set (s := sinh v) in *.
    replace (RtoC (/ - s)) with (/ (ci * (0%R, s)))%C by (apply injective_projections; simpl; field; nra).
    rewrite cinv_rot by (intros Q; apply (f_equal snd) in Q; simpl in Q; lra). f_equal. apply cmod_eq. simpl. ring.
Qed.
Lemma c2_nums n v x y : (0 < n)%nat ->
  Cmod (facs (0%R, x) (RtoC y) (map snd (flat (pts_of n (c2_q n v)) (sg_of n (c2_q0 v))))) =
  Rabs (rprod (map (fun k => y - x * cos (theta n k)) (seq 0 n))) / c2_PZ n.
Proof.
  intros Hn.
  rewrite (facs_fold (snd : apt -> option C) hc_zero n (c2_q n v) (c2_q0 v) (fun k => Rabs (y - x * cos (theta n k)) / c2_zc n k)).
  - rewrite rprod_div, rprod_abs. reflexivity.
  - intros i Hi. pose proof (half_lt _ _ Hi) as Hi'. pose proof (half_odd _ _ Hi) as Ho. unfold c2_zc.
    replace (2 * i + 1 =? n)%nat with false by (symmetry; apply Nat.eqb_neq; lia).
    replace (2 * (n - 1 - i) + 1 =? n)%nat with false by (symmetry; apply Nat.eqb_neq; lia).
    rewrite theta_mirror by exact Hi'. replace (cos (PI - theta n i)) with (- cos (theta n i))
      by (replace (PI - theta n i) with (- theta n i + PI) by ring; rewrite neg_cos, cos_neg; reflexivity).
    assert (NZ : cos (theta n i) <> 0) by (apply cos_theta_nz; lia). set (c := cos (theta n i)) in *.
    assert (E : forall k, k <> 0 -> Cmod (fac (Some (0%R, / k)) (0%R, x) (RtoC y)) = Rabs (y - x * k) / Rabs k).
    { intros k Hk. transitivity (Cmod (RtoC ((y - x * k) / k))).
      - apply cmod_eq. simpl. field. exact Hk.
      - rewrite Cmod_R. unfold Rdiv. rewrite Rabs_mult, Rabs_inv. reflexivity. }
    unfold c2_q. cbn [snd option_map]. fold c. rewrite E by exact NZ.
    replace (Cconj (0, / c)) with (0%R, / - c) by (apply injective_projections; simpl; field; exact NZ).
    rewrite E by lra. reflexivity.
  - intros O. pose proof (odd_half n O) as Q. unfold c2_zc. rewrite Q, Nat.eqb_refl. unfold c2_q0. cbn [snd fac].
    rewrite (theta_mid n O), cos_PI2, Cmod_R. rewrite Rmult_0_r, Rminus_0_r. field.
Qed.
Definition c2_K (n : nat) (v : R) : R := c2_PR n v ^ 2 / c2_PZ n ^ 2.
Lemma c2_K_pos n v : 0 < v -> 0 < c2_K n v.
Proof. intros Hv. apply Rdiv_lt_0_compat; apply pow_lt; [apply c2_PR_pos; exact Hv|apply c2_PZ_pos]. Qed.
Lemma c2_mag n v x y : (0 < n)%nat -> 0 < v -> x <> 0 ->
  mag (flat (pts_of n (c2_q n v)) (sg_of n (c2_q0 v))) x y ^ 2 =
  c2_K n v * (cheb n (y / x) ^ 2 / (cheb n (y / x) ^ 2 + sinh (INR n * v) ^ 2)).
Proof.
  intros Hn Hv Hx. rewrite mag_sq, c2_dens, c2_nums by assumption.
  rewrite cheb_prod' by assumption.
  assert (E : rprod (map (fun k => y - x * cos (theta n k)) (seq 0 n)) = x ^ n * (cheb n (y / x) / cheb_lead n)).
  { pose proof (cheb_lead_pos n). rewrite cheb_zeros by exact Hn. rewrite <- (seq_length n 0) at 2.
    replace (cheb_lead n * rprod (map (fun k => y / x - cos (theta n k)) (seq 0 n)) / cheb_lead n)
      with (rprod (map (fun k => y / x - cos (theta n k)) (seq 0 n))) by (field; lra).
    rewrite <- rprod_scale. f_equal. apply map_ext. intros k. field. exact Hx. }
  rewrite E, rdiv_sq, pow2_abs.
  pose proof (cheb_lead_pos n). pose proof (c2_PR_pos n v Hv). pose proof (c2_PZ_pos n).
  assert (0 < sinh (INR n * v)) by (apply sinh_lt, Rmult_lt_0_compat; [apply lt_0_INR; lia|exact Hv]).
  assert (0 < cheb n (y / x) ^ 2 + sinh (INR n * v) ^ 2) by (pose proof (pow2_ge_0 (cheb n (y / x))); pose proof (pow_lt _ 2 H2); lra).
  replace (x ^ (2 * n)) with ((x ^ n) ^ 2) by (rewrite <- pow_mult; f_equal; lia).
  assert (x ^ n <> 0) by (apply pow_nonzero; exact Hx). unfold c2_K. field. repeat split; lra.
Qed.
Lemma c2_mag0 n v y : (0 < n)%nat -> 0 < v -> y <> 0 -> mag (flat (pts_of n (c2_q n v)) (sg_of n (c2_q0 v))) 0 y ^ 2 = c2_K n v.
Proof.
  intros Hn Hv Hy. rewrite mag_sq, c2_dens, c2_nums by assumption. rewrite prod_zero.
  replace (rprod (map (fun k => y - 0 * cos (theta n k)) (seq 0 n))) with (y ^ n).
  - pose proof (c2_PR_pos n v Hv). pose proof (c2_PZ_pos n). rewrite rdiv_sq, pow2_abs.
    replace (y ^ (2 * n)) with ((y ^ n) ^ 2) by (rewrite <- pow_mult; f_equal; lia).
    assert (y ^ n <> 0) by (apply pow_nonzero; exact Hy). unfold c2_K. field. repeat split; lra.
  - rewrite <- (seq_length n 0) at 1. rewrite <- rprod_const. f_equal. apply map_ext. intros k. ring.
Qed.
