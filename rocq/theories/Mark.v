(** Proofs: what filters in binary64 settle on at the frequencies where their gain is documented. *)
From Coq Require Import Nsatz.
From Coq Require Import ZArith List Bool Reals Lra Lia.
From Coquelicot Require Import Coquelicot.
From Flocq Require Import IEEE754.BinarySingleNaN.
From Verif Require Import Num Outcome Types Biquad State Cascade RBJ PoleFilter Float64 FloatSpec Stream
  SigSpec SigProofs StabProofs RespProofs RoundSpec DblSpec BwDblSpec BwDblFinal ChainSpec RespDblSpec RbjShSpec RbjRespSpec SettleSpec Settle SettleResp MarkSpec.
Import ListNotations.
Local Open Scope R_scope.

Lemma zi_0 : z_inv 0 = RtoC 1.
Proof. unfold z_inv, cis, RtoC. rewrite Rmult_0_r, Ropp_0, cos_0, sin_0. reflexivity. Qed.
Lemma zi_half : z_inv (1 / 2) = RtoC (-1).
Proof. unfold z_inv, cis, RtoC. replace (2 * PI * (1 / 2)) with PI by field. rewrite cos_neg, sin_neg, cos_PI, sin_PI. f_equal. ring. Qed.
Lemma zi_f f : z_inv f = (cos (2 * PI * f), - sin (2 * PI * f)).
Proof. unfold z_inv, cis. rewrite cos_neg, sin_neg. reflexivity. Qed.
Lemma poly2_parts c0 c1 c2 x y : poly2 c0 c1 c2 (x, y) = (c0 + c1 * x + c2 * (x * x - y * y), c1 * y + 2 * c2 * x * y).
Proof. unfold poly2, RtoC, Cplus, Cmult. cbn [fst snd]. f_equal; ring. Qed.
Lemma mark_resp i G fr h : rec_gain (i_a1 i) (i_a2 i) G -> i_num fr i = (h * i_den fr i)%C -> i_resp (i :: nil) fr = h.
Proof.
  intros HG E. assert (D : 0 < Cmod (cprod (map (i_den fr) (i :: nil)))). { apply den_pos. constructor; [exact (gain_stable _ _ _ HG)|constructor]. }
  unfold i_resp, cprod in *. cbn [map fold_right] in *. rewrite Cmult_1_r in *. rewrite Cmult_1_r, E. apply Cmod_gt_0 in D. field. exact D.
Qed.
Lemma sinh_nonneg x : 0 <= x -> 0 <= sinh x.
Proof. intros H. unfold sinh. assert (exp (- x) <= exp x) by (destruct (Req_dec x 0) as [->|]; [rewrite Ropp_0; lra|left; apply exp_increasing; lra]). lra. Qed.

Lemma norm_mark a0 a1 a2 b0 b1 b2 x y hr hi : a0 <> 0 ->
  b0 + b1 * x + b2 * (x * x - y * y) = hr * (a0 + a1 * x + a2 * (x * x - y * y)) - hi * (a1 * y + 2 * a2 * x * y) ->
  b1 * y + 2 * b2 * x * y = hr * (a1 * y + 2 * a2 * x * y) + hi * (a0 + a1 * x + a2 * (x * x - y * y)) ->
  poly2 (b0 / a0) (b1 / a0) (b2 / a0) (x, y) = ((hr, hi) * poly2 1 (a1 / a0) (a2 / a0) (x, y))%C.
Proof.
  intros H E1 E2. rewrite !poly2_parts. unfold Cmult. cbn [fst snd]. f_equal; apply (Rmult_eq_reg_l a0); try exact H.
  - replace (a0 * _) with (b0 + b1 * x + b2 * (x * x - y * y)) by (field; exact H). rewrite E1. field. exact H.
  - replace (a0 * _) with (b1 * y + 2 * b2 * x * y) by (field; exact H). rewrite E2. field. exact H.
Qed.

Lemma rbj_marks k f g q : rbj_args k f g q -> List.Forall (fun p => i_num (fst p) (rbj_ideal k f g q) = (snd p * i_den (fst p) (rbj_ideal k f g q))%C) (landmarks k f g q).
Proof.
  intros H. assert (Hf : 0 < f < 1 / 2) by (unfold rbj_args in H; destruct (rbj_is_shelf k); [apply H|apply H]).
  pose proof PI_RGT_0 as PP. set (w := 2 * PI * f). assert (Hw : 0 < w < PI) by (unfold w; split; [apply Rmult_lt_0_compat; lra|nra]).
  assert (S0 : 0 < sin w) by (apply sin_gt_0; lra). pose proof (sin2_cos2 w) as SC. unfold Rsqr in SC. pose proof (COS_bound w) as CB.
  assert (HH : Rpower 10 (g / 20) = Rpower 10 (g / 40) * Rpower 10 (g / 40)) by (rewrite <- Rpower_plus; f_equal; field).
  assert (AP : 0 < Rpower 10 (g / 40)) by apply exp_pos.
  unfold rbj_args in H. set (c := cos w) in *. set (s := sin w) in *. set (a := Rpower 10 (g / 40)) in *.
  unfold i_num, i_den, landmarks, rbj_ideal.
  destruct k; cbn [rbj_is_shelf] in *; unfold cookbook, cookbook_shelf; fold w; rewrite ?HH; cbv zeta; fold c s a;
    repeat (constructor; [cbn [fst snd i_a1 i_a2 i_b0 i_b1 i_b2]; rewrite ?zi_0, ?zi_half, ?zi_f; fold w; fold c s; unfold RtoC|]); try apply List.Forall_nil.
  (* the notch of the library; its numerator is not divided *)
  all: try (rewrite !poly2_parts; unfold Cmult; cbn [fst snd]; clearbody c s; f_equal; [clear - SC; nsatz|clear - SC; ring]; fail).
  all: try (assert (Q0 : 0 < q) by lra; set (al := s / (2 * q)) in *; assert (AL : 0 < al) by (apply Rdiv_lt_0_compat; lra); assert (AE : 2 * q * al = s) by (unfold al; field; lra); clearbody al;
     pose (h1 := s / 2); pose (h2 := (1 - c) / 2); pose (h3 := (1 + c) / 2); assert (E1 : 2 * h1 = s) by (unfold h1; field); assert (E2 : 2 * h2 = 1 - c) by (unfold h2; field); assert (E3 : 2 * h3 = 1 + c) by (unfold h3; field);
     fold h1 h2 h3; apply norm_mark; [lra|clearbody h1 h2 h3 c s; clear - SC AE E1 E2 E3; nsatz|clearbody h1 h2 h3 c s; clear - SC AE E1 E2 E3; nsatz]).
  all: destruct H as (_ & HG & HS).
  all: try (set (sq := 2 * sqrt a * _); assert (SQ : 0 <= sq) by (unfold sq; apply Rmult_le_pos; [apply Rmult_le_pos; [lra|apply sqrt_pos]|apply Rmult_le_pos; [lra|apply sqrt_pos]]); clearbody sq; 
     apply norm_mark; [clearbody c s a; nra|ring|ring]).
  all: set (al := s * sinh _); assert (AL : 0 <= al) by (unfold al; apply Rmult_le_pos; [lra|]; apply sinh_nonneg; apply Rmult_le_pos; [apply Rmult_le_pos; [apply Rmult_le_pos; [pose proof (ln_lt_2); lra|lra]|lra]|left; apply Rinv_0_lt_compat; exact S0]); clearbody al.
  all: assert (AQ : 0 <= al / a) by (apply Rmult_le_pos; [lra|left; apply Rinv_0_lt_compat; lra]); assert (AE : a * (al / a) = al) by (field; lra); set (u := al / a) in *; clearbody u.
  all: apply norm_mark; [lra|clearbody c s a; clear - SC AE; nsatz|clearbody c s a; clear - SC AE; nsatz].
Qed.

Lemma c96_rbj m (f g q : f64) k (r : rbj (F64 m)) : rbj_libm k m -> FloatSpec.is_fin f -> FloatSpec.is_fin g -> FloatSpec.is_fin q -> rbj_args k (B2R f) (B2R g) (B2R q) ->
  let i := rbj_ideal k (B2R f) (B2R g) (B2R q) in let er := rbj_coef_error k (B2R q) in
  exists r', rbj_obj_setupN (N := F64 m) k f g q r = Ok r' tt /\
    forall fr (h : C), In (fr, h) (landmarks k (B2R f) (B2R g) (B2R q)) ->
    forall G X e (A : C) eps, let l := DSect i G er er :: nil in chain_ok l X -> 0 <= X -> 0 <= e -> 0 < eps -> exists N, forall xs : list f64, follows A fr e X xs ->
    let ys := snd (rbj_run (rbj_reset r') xs) : list f64 in
    length ys = length xs /\ settles N (h * A)%C fr (chain_error l X e + eps) ys.
Proof.
  intros HL Ff Fg Fq H i er. destruct (c93_rbj m f g q k r HL Ff Fg Fq H) as (r' & E & S). exists r'. split; [exact E|]. intros fr h Hin G X e A eps l OK HX He Hp.
  destruct (S G X e fr A eps OK HX He Hp) as [N HN]. exists N. fold i in HN.
  pose proof (rbj_marks k (B2R f) (B2R g) (B2R q) H) as M. rewrite List.Forall_forall in M. specialize (M _ Hin). cbn [fst snd] in M. fold i in M.
  destruct OK as ((HG & _) & _). cbn [d_id d_G] in HG. rewrite (mark_resp i G fr h HG M) in HN. exact HN.
Qed.

(** ** Butterworth *)
Lemma poly2_real c0 c1 c2 z : poly2 c0 c1 c2 (RtoC z) = RtoC (c0 + c1 * z + c2 * (z * z)).
Proof. unfold poly2. rewrite <- !RtoC_mult, <- !RtoC_plus. reflexivity. Qed.
Lemma cprod_real {T} (g : T -> C) (h : T -> R) (l : list T) : (forall x, g x = RtoC (h x)) -> cprod (map g l) = RtoC (fold_right Rmult 1 (map h l)).
Proof. intros H. unfold cprod. induction l as [|x l IH]; [reflexivity|]. cbn [map fold_right]. rewrite IH, H, RtoC_mult. reflexivity. Qed.
Lemma prod_div {T} (d n : T -> R) (l : list T) : (forall x, n x <> 0) -> fold_right Rmult 1 (map (fun x => d x / n x) l) * fold_right Rmult 1 (map n l) = fold_right Rmult 1 (map d l).
Proof. intros H. induction l as [|x l IH]; [cbn; ring|]. cbn [map fold_right]. rewrite <- IH. field. apply H. Qed.
Lemma bw_marks hp f n : (1 <= n)%nat -> (forall x, 0 < Cmod (cprod (map (i_den x) (bw_cascade hp f n)))) ->
  i_resp (bw_cascade hp f n) (if hp then 1 / 2 else 0) = RtoC 1 /\ i_resp (bw_cascade hp f n) (if hp then 0 else 1 / 2) = RtoC 0.
Proof.
  intros Hn HD. assert (S1 : exists k, bw_sections n = S k). { unfold bw_sections. assert ((1 + 1) / 2 <= (n + 1) / 2)%nat by (apply Nat.div_le_mono; lia). change ((1 + 1) / 2)%nat with 1%nat in *. exists ((n + 1) / 2 - 1)%nat. lia. }
  destruct S1 as [k Hk]. set (z := if hp then -1 else 1). assert (ZZ : z * z = 1) by (unfold z; destruct hp; ring).
  assert (NM : forall i, i_b0 (bw_ideal hp f n i) + i_b1 (bw_ideal hp f n i) * z + i_b2 (bw_ideal hp f n i) * (z * z) <> 0 /\
     i_b0 (bw_ideal hp f n i) - i_b1 (bw_ideal hp f n i) * z + i_b2 (bw_ideal hp f n i) * (z * z) = 0).
  { intros i. unfold bw_ideal. fold z. destruct (Nat.ltb i (n / 2)); cbn [i_b0 i_b1 i_b2]; split; nra. }
  split.
  - assert (U : z_inv (if hp then 1 / 2 else 0) = RtoC z) by (unfold z; destruct hp; [apply zi_half|apply zi_0]). specialize (HD (if hp then 1 / 2 else 0)).
    set (x := if hp then 1 / 2 else 0) in *. unfold i_resp.
    assert (E : cprod (map (i_num x) (bw_cascade hp f n)) = cprod (map (i_den x) (bw_cascade hp f n))).
    { unfold bw_cascade. rewrite !map_map. set (D := fun i => 1 + z * i_a1 (bw_ideal hp f n i) + i_a2 (bw_ideal hp f n i)). set (M := fun i => i_b0 (bw_ideal hp f n i) + z * i_b1 (bw_ideal hp f n i) + i_b2 (bw_ideal hp f n i)).
      rewrite (cprod_real (fun i => i_den x (bw_section hp f n i)) D). 2:{ intros i. unfold i_den. rewrite U, poly2_real, ZZ. unfold bw_section, scaled, D. cbn [i_a1 i_a2]. f_equal. ring. }
      rewrite (cprod_real (fun i => i_num x (bw_section hp f n i)) (fun i => M i * (if Nat.eqb i 0 then bw_scale hp f n else 1))). 2:{ intros i. unfold i_num. rewrite U, poly2_real, ZZ. unfold bw_section, scaled, M. cbn [i_b0 i_b1 i_b2]. f_equal. ring. }
      f_equal. rewrite <- (prod_div D M). 2:{ intros i. destruct (NM i) as [H _]. unfold M. intros Q. apply H. rewrite ZZ. rewrite <- Q. ring. }
      change (fold_right Rmult 1 (map (fun i => D i / M i) (seq 0 (bw_sections n)))) with (bw_scale hp f n). generalize (bw_scale hp f n). intros sc. rewrite Hk. cbn [seq map fold_right Nat.eqb].
      assert (Q : map (fun i => M i * (if Nat.eqb i 0 then sc else 1)) (seq 1 k) = map M (seq 1 k)). { apply map_ext_in. intros i Hi. apply in_seq in Hi. destruct i; [lia|]. cbn [Nat.eqb]. ring. }
      rewrite Q. ring. }
    rewrite E. apply Cmod_gt_0 in HD. field. exact HD.
  - assert (U : z_inv (if hp then 0 else 1 / 2) = RtoC (- z)). { unfold z; destruct hp; [rewrite zi_0; f_equal; ring|rewrite zi_half; f_equal; ring]. }
    unfold i_resp. assert (E : cprod (map (i_num (if hp then 0 else 1 / 2)) (bw_cascade hp f n)) = RtoC 0).
    { unfold bw_cascade. rewrite Hk. cbn [seq map]. unfold cprod. cbn [fold_right]. set (P := fold_right _ _ _). unfold i_num. rewrite U, poly2_real. unfold bw_section, scaled. cbn [i_b0 i_b1 i_b2 Nat.eqb].
      replace (_ + _ + _) with ((i_b0 (bw_ideal hp f n 0) - i_b1 (bw_ideal hp f n 0) * z + i_b2 (bw_ideal hp f n 0) * (z * z)) * bw_scale hp f n) by ring. rewrite (proj2 (NM 0%nat)), Rmult_0_l. apply Cmult_0_l. }
    rewrite E. unfold Cdiv. apply Cmult_0_l.
Qed.
Lemma bw_chain_ids hp f n : map d_id (bw_chain hp f n) = bw_cascade hp f n.
Proof. unfold bw_chain, bw_cascade. rewrite map_map. reflexivity. Qed.
Lemma c96_butterworth m (hp : bool) (q : params (F64 m)) n FO t : libm_design m -> libm_response m -> FloatSpec.is_fin (q_fc q : f64) ->
  / 2 ^ 14 <= B2R (q_fc q : f64) <= 1 / 2 - / 2 ^ 14 -> (1 <= n <= 24)%nat -> (Z.of_nat n <= FO)%Z ->
  let k := (Bw, if hp then HP else LP) in let f := B2R (q_fc q : f64) in let l := bw_chain hp f n in
  bw_scale_error hp f n <= / 8 ->
  exists fl, filt_setupN (N := F64 m) k FO (Some (Z.of_nat n)) q (filt_init t k FO) = Ok fl tt /\
    forall (pass : bool) X e (A : C) eps, chain_ok l X -> 0 <= X -> 0 <= e -> 0 < eps -> let fr := if eqb pass hp then 1 / 2 else 0 in exists N, forall xs : list f64, follows A fr e X xs ->
    let ys := snd (filt_run fl xs) : list f64 in
    length ys = length xs /\ settles N ((if pass then RtoC 1 else RtoC 0) * A)%C fr (chain_error l X e + eps) ys.
Proof.
  intros HM HR Ff Hf HN0 HFO k f l HE. destruct (c93_butterworth m hp q n FO t HM HR Ff Hf HN0 HFO HE) as (fl & E & S). exists fl. split; [exact E|]. intros pass X e A eps OK HX He Hp fr.
  destruct (S X e fr A eps OK HX He Hp) as [N HN]. exists N. fold f in HN.
  assert (DP : forall x, 0 < Cmod (cprod (map (i_den x) (bw_cascade hp f n)))). { intros x. apply den_pos. rewrite <- bw_chain_ids. exact (chain_stable l X OK). }
  destruct (bw_marks hp f n ltac:(lia) DP) as [M1 M0].
  replace (if pass then RtoC 1 else RtoC 0) with (i_resp (bw_cascade hp f n) fr); [exact HN|]. unfold fr. destruct pass, hp; cbn [eqb]; assumption.
Qed.
