(** Proofs: no call history makes a filter access an array out of range. *)
From Coq Require Import ZArith List Bool Lia.
From Verif Require Import Num Outcome Types Biquad State Cascade Transforms Butterworth Chebyshev
  PoleFilter History Hoare.
Import ListNotations.
Local Open Scope Z_scope.

Lemma quot2_pos n : 0 <= n -> Z.quot n 2 = n / 2.
Proof. intros. apply Z.quot_div_nonneg; lia. Qed.

(** how many poles [design(order)] creates: quot pairs plus one when odd *)
Definition npoles (o : Z) : Z := 2 * Z.max 0 (Z.quot o 2) + (if Z.odd o then 1 else 0).

Lemma npoles_pos o : 0 <= o -> npoles o = o.
Proof.
  intros H. unfold npoles. rewrite quot2_pos by lia.
  pose proof (Z.div_mod o 2 ltac:(lia)). rewrite Zmod_odd in H0.
  pose proof (Z.div_pos o 2 H ltac:(lia)).
  destruct (Z.odd o); lia.
Qed.

Lemma npoles_neg o : o < 0 -> npoles o = if Z.odd o then 1 else 0.
Proof.
  intros H. unfold npoles.
  assert (Z.quot o 2 <= 0) by (pose proof (Z.quot_opp_l o 2 ltac:(lia));
    rewrite <- (Z.opp_involutive o) in *; rewrite Z.quot_opp_l by lia;
    rewrite quot2_pos by lia; pose proof (Z.div_pos (-o) 2); lia).
  destruct (Z.odd o); lia.
Qed.

Lemma ret_bind S A B (a : A) (f : A -> M S B) : bind (ret a) f = f a.
Proof. reflexivity. Qed.

Lemma h_assoc S A B C (P R : S -> Prop) (Q : C -> S -> Prop) (E : S -> Prop)
  (a : M S A) (b : M S B) (c : M S C) :
  hoare P (a ;; b) (fun _ => R) E -> hoare R c Q E -> hoare P (a ;; (b ;; c)) Q E.
Proof.
  intros H1 H2 s Hs. specialize (H1 s Hs). unfold bind in *.
  destruct (a s) as [s1 x|e s1|]; auto. destruct (b s1) as [s2 y|e s2|]; auto.
  exact (H2 s2 H1).
Qed.

Section Safe.
  Context {N : num}.
  (** std::polar returns for every argument (as libstdc++ does) *)
  Hypothesis polar_total : forall r th, npolar N r th <> None.

  Lemma polar_some r th : exists c, npolar N r th = Some c.
  Proof. destruct (npolar N r th) eqn:E; [eauto|]. elim (polar_total r th E). Qed.

  (** a layout with capacity [cap] holding [n] poles *)
  Definition lay_n (cap n : Z) (l : layout N) : Prop :=
    l_numPoles l = n /\ Z.of_nat (length (l_pairs l)) = Z.quot (cap + 1) 2.
  Definition lay_ok (cap : Z) (l : layout N) : Prop :=
    exists n, 0 <= n <= cap /\ lay_n cap n l.

  Lemma lay_write_ok cap n p : 0 <= n < cap ->
    hoare (lay_n cap n) (lay_write p) (fun _ => lay_n cap n) (lay_ok cap).
  Proof.
    intros Hn l [H1 H2]. unfold lay_write, bind, get. simpl.
    rewrite quot2_pos in H2 by lia.
    assert (Hr : 0 <= Z.quot (l_numPoles l) 2 < Z.of_nat (length (l_pairs l))).
    { rewrite H1, H2, quot2_pos by lia. split; [apply Z.div_pos; lia|].
      apply Z.div_lt_upper_bound; [lia|]. pose proof (Z.div_mod (cap + 1) 2). 
      pose proof (Z.mod_pos_bound (cap+1) 2). lia. }
    rewrite aset_some by exact Hr. simpl. split; [exact H1|].
    simpl. rewrite upd_length, quot2_pos by lia. exact H2.
  Qed.

  Lemma lay_add1_ok cap n p z : 0 <= n < cap ->
    hoare (lay_n cap n) (lay_add1 p z) (fun _ => lay_n cap (n + 1)) (lay_ok cap).
  Proof.
    intros Hn. assert (HE : forall l, lay_n cap n l -> lay_ok cap l) by (intros; exists n; split; [lia|auto]).
    unfold lay_add1.
    apply h_get_any; intros l0.
    eapply h_seq; [apply (h_throw_if _ _ _ (fun _ => lay_n cap n)); auto|].
    eapply h_seq; [apply (h_throw_if _ _ _ (fun _ => lay_n cap n)); auto|].
    eapply h_seq; [apply (h_throw_if _ _ _ (fun _ => lay_n cap n)); auto|].
    eapply h_bind with (R := fun _ => lay_n cap n).
    { apply h_lift. intros l Hl. unfold pz_single, cpair_single, obind, othrow_if.
      destruct (negb (cp_isReal (CPair p (c_of n0)))); [auto|].
      destruct (negb (cp_isReal (CPair z (c_of n0)))); auto. }
    intros pz.
    eapply h_seq; [apply lay_write_ok; lia|].
    intros l [H1 H2]. simpl. split; simpl; [lia|exact H2].
  Qed.

  Lemma lay_add_pair_ok cap n p : 0 <= n -> n + 2 <= cap ->
    hoare (lay_n cap n) (lay_write p ;; modify (fun l => l_set_numPoles (l_numPoles l + 2) l))
          (fun _ => lay_n cap (n + 2)) (lay_ok cap).
  Proof.
    intros. eapply h_seq; [apply lay_write_ok; lia|].
    intros l [H1 H2]. simpl. split; simpl; [lia|exact H2].
  Qed.

  Lemma lay_addConj_ok cap n p z : 0 <= n -> n + 2 <= cap ->
    hoare (lay_n cap n) (lay_addConj p z) (fun _ => lay_n cap (n + 2)) (lay_ok cap).
  Proof.
    intros Hn Hc. assert (HE : forall l, lay_n cap n l -> lay_ok cap l) by (intros; exists n; split; [lia|auto]).
    unfold lay_addConj.
    apply h_get_any; intros l0.
    eapply h_seq; [apply (h_throw_if _ _ _ (fun _ => lay_n cap n)); auto|].
    eapply h_seq; [apply (h_throw_if _ _ _ (fun _ => lay_n cap n)); auto|].
    eapply h_seq; [apply (h_throw_if _ _ _ (fun _ => lay_n cap n)); auto|].
    apply lay_add_pair_ok; auto.
  Qed.

  Lemma lay_add2_ok cap n p z : 0 <= n -> n + 2 <= cap ->
    hoare (lay_n cap n) (lay_add2 p z) (fun _ => lay_n cap (n + 2)) (lay_ok cap).
  Proof.
    intros Hn Hc. assert (HE : forall l, lay_n cap n l -> lay_ok cap l) by (intros; exists n; split; [lia|auto]).
    unfold lay_add2.
    apply h_get_any; intros l0.
    eapply h_seq; [apply (h_throw_if _ _ _ (fun _ => lay_n cap n)); auto|].
    eapply h_seq; [apply (h_throw_if _ _ _ (fun _ => lay_n cap n)); auto|].
    eapply h_seq; [apply (h_throw_if _ _ _ (fun _ => lay_n cap n)); auto|].
    apply lay_add_pair_ok; auto.
  Qed.

  Lemma lay_reset_ok cap : hoare (lay_ok cap) (modify lay_reset) (fun _ => lay_n cap 0) (lay_ok cap).
  Proof. intros l [n [H [H1 H2]]]. simpl. split; [reflexivity|exact H2]. Qed.

  Lemma lay_setNormal_ok cap n w g E :
    hoare (lay_n cap n) (modify (lay_setNormal w g)) (fun _ => lay_n cap n) E.
  Proof. intros l [H1 H2]. simpl. split; assumption. Qed.

  Lemma lay_getPair_ok cap l i : lay_ok cap l ->
    match lay_getPair l i with Undef => False | _ => True end.
  Proof.
    intros [n [Hn [H1 H2]]]. unfold lay_getPair, obind, othrow_if.
    destruct (Z.ltb_spec i 0); simpl; auto.
    destruct (Z.leb_spec (Z.quot (l_numPoles l + 1) 2) i); simpl; auto.
    rewrite H1 in H0. rewrite quot2_pos in * by lia.
    destruct (aget_some _ (l_pairs l) i) as [x Hx].
    - split; [lia|]. rewrite H2. eapply Z.lt_le_trans; [exact H0|]. apply Z.div_le_mono; lia.
    - rewrite Hx. simpl. auto.
  Qed.

  Lemma lay_getPair_val cap l i : lay_ok cap l -> 0 <= i < Z.quot (l_numPoles l + 1) 2 ->
    exists p, lay_getPair l i = Val p.
  Proof.
    intros H Hi. pose proof (lay_getPair_ok cap l i H) as G. unfold lay_getPair, obind, othrow_if in *.
    destruct (Z.ltb_spec i 0); [lia|]. simpl in *.
    destruct (Z.leb_spec (Z.quot (l_numPoles l + 1) 2) i); [lia|]. simpl in *.
    destruct (aget (l_pairs l) i); simpl in *; [eauto|contradiction].
  Qed.

  (** loop building [m] conjugate pairs *)
  Lemma pairs_loop_ok cap (body : Z -> M (layout N) unit) (m d : Z) : 0 < d ->
    (forall i, 0 <= i < m -> forall n, n = d * i ->
       hoare (lay_n cap n) (body i) (fun _ => lay_n cap (n + d)) (lay_ok cap)) ->
    hoare (lay_n cap 0) (mfor (zrange m) body) (fun _ => lay_n cap (d * Z.max 0 m)) (lay_ok cap).
  Proof.
    intros Hd H. 
    eapply h_conseq; [apply (h_mfor m (fun i => lay_n cap (d * i)) body (lay_ok cap))| | |]; auto.
    - intros i Hi. replace (d * (i + 1)) with (d * i + d) by ring. apply H; auto.
    - intros l Hl. rewrite Z.mul_0_r. exact Hl.
  Qed.

  Lemma design_cap o cap : o <= cap -> 1 <= cap -> npoles o <= cap.
  Proof.
    intros. destruct (Z_lt_le_dec o 0).
    - rewrite npoles_neg by lia. destruct (Z.odd o); lia.
    - rewrite npoles_pos by lia. lia.
  Qed.

  Lemma npoles_nonneg o : 0 <= npoles o.
  Proof. unfold npoles. destruct (Z.odd o); lia. Qed.

  (** generic design: pairs from a loop, then a single pole when the order is odd *)
  Lemma poles_design_ok cap o (body : Z -> M (layout N) unit) (last : M (layout N) unit) :
    o <= cap -> 1 <= cap ->
    (forall i n, 0 <= n -> n + 2 <= cap -> hoare (lay_n cap n) (body i) (fun _ => lay_n cap (n + 2)) (lay_ok cap)) ->
    (forall n, 0 <= n -> n + 1 <= cap -> hoare (lay_n cap n) last (fun _ => lay_n cap (n + 1)) (lay_ok cap)) ->
    hoare (lay_n cap 0) (mfor (zrange (Z.quot o 2)) body ;; (if Z.odd o then last else ret tt))
          (fun _ => lay_ok cap) (lay_ok cap).
  Proof.
    intros Ho Hc Hb Hl. pose proof (design_cap o cap Ho Hc) as Hnp. unfold npoles in Hnp.
    assert (Hodd : 2 * Z.max 0 (Z.quot o 2) <= cap) by (destruct (Z.odd o); lia).
    eapply h_seq.
    - apply (pairs_loop_ok cap body (Z.quot o 2) 2); [lia|]. intros i Hi n ->. apply Hb; lia.
    - destruct (Z.odd o).
      + eapply h_conseq; [apply Hl with (n := 2 * Z.max 0 (Z.quot o 2)); lia| | |]; auto.
        intros u l H. exists (2 * Z.max 0 (Z.quot o 2) + 1). split; [lia|exact H].
      + intros l H. simpl. exists (2 * Z.max 0 (Z.quot o 2)). split; [lia|exact H].
  Qed.

  Lemma mfor_bind_odd_normal cap o body last w1 g1 w2 g2 :
    hoare (lay_n cap 0) (mfor (zrange (Z.quot o 2)) body ;; (if Z.odd o then last else ret tt))
          (fun _ => lay_ok cap) (lay_ok cap) ->
    hoare (lay_n cap 0) (mfor (zrange (Z.quot o 2)) body ;;
       (if Z.odd o then last ;; modify (lay_setNormal w1 g1) else modify (lay_setNormal w2 g2)))
          (fun _ => lay_ok cap) (lay_ok cap).
  Proof.
    intros H l Hl. specialize (H l Hl). unfold bind in *.
    destruct (mfor (zrange (Z.quot o 2)) body l) as [l' a|e l'|]; auto.
    destruct (Z.odd o).
    - destruct (last l') as [l'' b|e l''|]; exact H.
    - exact H.
  Qed.

  Definition proto_ok (cap : Z) (p : proto N) : Prop := lay_ok cap (p_lay p).

  Lemma on_lay_ok A cap (m : M (layout N) A) (P : layout N -> Prop) (Q : A -> layout N -> Prop) :
    hoare P m Q (lay_ok cap) ->
    hoare (fun p => P (p_lay p)) (on_lay m) (fun a p => Q a (p_lay p)) (proto_ok cap).
  Proof.
    intros H p Hp. unfold on_lay, zoom. specialize (H (p_lay p) Hp).
    destruct (m (p_lay p)); simpl; auto.
  Qed.

  Ltac design_start cap :=
    apply h_get_any; intros p0;
    match goal with |- hoare _ (if ?b then _ else _) _ _ => destruct b end;
    [|intros p Hp; exact Hp];
    apply (h_seq _ _ _ _ (proto_ok cap)); [intros p Hp; exact Hp|];
    apply (h_seq _ _ _ _ (fun p => lay_n cap 0 (p_lay p)));
    [apply (on_lay_ok unit cap _ (lay_ok cap) (fun _ => lay_n cap 0)); apply lay_reset_ok|].

  Lemma int_ok (o cap : Z) : o <= cap -> in_int (2 * o) = true \/ o = cap -> in_int (2 * cap) = true ->
    in_int (2 * o) = true.
  Proof. intros H [H1| ->]; auto. Qed.

  Lemma bw_lp_design_ok cap o : o <= cap -> 1 <= cap -> in_int (2 * o) = true ->
    hoare (proto_ok cap) (bw_lp_design o) (fun _ => proto_ok cap) (proto_ok cap).
  Proof.
    intros Ho Hc Hi. unfold bw_lp_design. design_start cap.
    unfold int_ub. rewrite Hi.
    eapply h_or_ub_bind; [reflexivity|]. set (n2 := nofZ N (2 * o)).
    apply (on_lay_ok unit cap _ (lay_n cap 0) (fun _ => lay_ok cap)).
    unfold bw_lp_poles. apply poles_design_ok; auto.
    - intros i n Hn Hn2.
      match goal with |- context [or_ub (npolar N ?r ?t)] => destruct (polar_some r t) as [c Hc'] end.
      eapply h_or_ub_bind; [exact Hc'|].
      apply lay_addConj_ok; auto.
    - intros n Hn Hn2. apply lay_add1_ok; lia.
  Qed.

  Lemma bw_ls_design_ok cap o g : o <= cap -> 1 <= cap -> in_int (2 * o) = true ->
    hoare (proto_ok cap) (bw_ls_design o g) (fun _ => proto_ok cap) (proto_ok cap).
  Proof.
    intros Ho Hc Hi. unfold bw_ls_design. design_start cap.
    unfold int_ub. rewrite Z.mul_comm in Hi. rewrite Hi.
    eapply h_or_ub_bind; [reflexivity|].
    apply (on_lay_ok unit cap _ (lay_n cap 0) (fun _ => lay_ok cap)).
    unfold bw_ls_poles. apply poles_design_ok; auto.
    - intros i n Hn Hn2.
      match goal with |- context [or_ub (npolar N ?r ?t)] => destruct (polar_some r t) as [c Hc'] end.
      eapply h_or_ub_bind; [exact Hc'|].
      match goal with |- context [or_ub (npolar N ?r ?t)] => destruct (polar_some r t) as [d Hd'] end.
      eapply h_or_ub_bind; [exact Hd'|].
      apply lay_addConj_ok; auto.
    - intros n Hn Hn2. apply lay_add1_ok; lia.
  Qed.

  Lemma c1_lp_design_ok cap o g : o <= cap -> 1 <= cap -> in_int (2 * o) = true ->
    hoare (proto_ok cap) (c1_lp_design o g) (fun _ => proto_ok cap) (proto_ok cap).
  Proof.
    intros Ho Hc Hi. unfold c1_lp_design. design_start cap.
    destruct (c1_lp_consts o g) as [s c].
    unfold int_ub. rewrite Hi.
    eapply h_or_ub_bind; [reflexivity|]. set (n2 := nofZ N (2 * o)).
    apply (on_lay_ok unit cap _ (lay_n cap 0) (fun _ => lay_ok cap)).
    unfold c1_lp_poles. apply mfor_bind_odd_normal. apply poles_design_ok; auto.
    - intros i n Hn Hn2. apply lay_addConj_ok; auto.
    - intros n Hn Hn2. apply lay_add1_ok; lia.
  Qed.

  Lemma c2_lp_design_ok cap o g : o <= cap -> 1 <= cap -> in_int (2 * o) = true ->
    hoare (proto_ok cap) (c2_lp_design o g) (fun _ => proto_ok cap) (proto_ok cap).
  Proof.
    intros Ho Hc Hi. unfold c2_lp_design. design_start cap.
    destruct (c2_lp_consts o g) as [s c].
    unfold int_ub. rewrite Hi.
    eapply h_or_ub_bind; [reflexivity|]. set (n2 := nofZ N (2 * o)).
    apply (on_lay_ok unit cap _ (lay_n cap 0) (fun _ => lay_ok cap)).
    unfold c2_lp_poles. apply poles_design_ok; auto.
    - intros i n Hn Hn2. apply lay_addConj_ok; auto.
    - intros n Hn Hn2. apply lay_add1_ok; lia.
  Qed.

  Lemma ls_design_ok cap o g d : o <= cap -> 1 <= cap -> in_int (2 * o) = true ->
    hoare (proto_ok cap) (ls_design o g d) (fun _ => proto_ok cap) (proto_ok cap).
  Proof.
    intros Ho Hc Hi. unfold ls_design. design_start cap.
    destruct (ls_consts o g d) as [[s c] [s' c']].
    unfold int_ub. rewrite Hi.
    eapply h_or_ub_bind; [reflexivity|]. set (n2 := nofZ N (2 * o)).
    apply (on_lay_ok unit cap _ (lay_n cap 0) (fun _ => lay_ok cap)).
    unfold ls_poles. apply poles_design_ok; auto.
    - intros i n Hn Hn2. apply lay_addConj_ok; auto.
    - intros n Hn Hn2. apply lay_add1_ok; lia.
  Qed.

  Lemma ana_design_ok k cap o q : o <= cap -> 1 <= cap -> in_int (2 * o) = true ->
    hoare (proto_ok cap) (ana_design k o q) (fun _ => proto_ok cap) (proto_ok cap).
  Proof.
    intros. unfold ana_design. destruct (fst k), (is_shelf (snd k)).
    - apply bw_ls_design_ok; auto.
    - apply bw_lp_design_ok; auto.
    - apply ls_design_ok; auto.
    - apply c1_lp_design_ok; auto.
    - apply ls_design_ok; auto.
    - apply c2_lp_design_ok; auto.
  Qed.

  (** transforms *)
  Lemma check_fc_ok (fc : T N) (P : layout N -> Prop) : hoare P (check_fc fc) (fun _ => P) P.
  Proof.
    unfold check_fc. eapply h_seq; [apply (h_throw_if _ _ _ (fun _ => P)); auto|].
    apply h_throw_if; auto.
  Qed.

  Lemma simple_loop_ok tr cap l : lay_ok cap l ->
    hoare (lay_n cap 0) (simple_loop tr l) (fun _ => lay_ok cap) (lay_ok cap).
  Proof.
    intros Hl. pose proof Hl as [n0' [Hn [H1 H2]]].
    unfold simple_loop.
    assert (Hp : npoles (l_numPoles l) <= cap) by (rewrite npoles_pos; lia).
    unfold npoles in Hp.
    eapply h_seq.
    - apply (pairs_loop_ok cap _ (Z.quot (l_numPoles l) 2) 2); [lia|]. intros i Hi n ->.
      destruct (lay_getPair_val cap l i Hl) as [p Hpair].
      { rewrite !quot2_pos in * by lia. split; [lia|]. eapply Z.lt_le_trans; [exact (proj2 Hi)|]. apply Z.div_le_mono; lia. }
            rewrite Hpair. unfold lift. rewrite !ret_bind.
      apply lay_addConj_ok; try destruct (Z.odd (l_numPoles l)); lia.
    - destruct (Z.odd (l_numPoles l)) eqn:Hodd; cbv iota in Hp.
      + destruct (lay_getPair_val cap l (Z.quot (l_numPoles l) 2) Hl) as [p Hpair].
        { rewrite !quot2_pos by lia.
          pose proof (Z.div_mod (l_numPoles l) 2 ltac:(lia)). rewrite Zmod_odd, Hodd in H.
          pose proof (Z.div_mod (l_numPoles l + 1) 2 ltac:(lia)).
          pose proof (Z.mod_pos_bound (l_numPoles l + 1) 2 ltac:(lia)).
          pose proof (Z.div_pos (l_numPoles l) 2). lia. }
                rewrite Hpair. unfold lift. rewrite !ret_bind.
        eapply h_conseq; [apply lay_add1_ok with (cap := cap) (n := 2 * Z.max 0 (Z.quot (l_numPoles l) 2)); lia| | |]; auto.
        intros u l' H. eexists. split; [|exact H]. lia.
      + intros l' H. simpl. eexists. split; [|exact H]. lia.
  Qed.

  Lemma setNormal_lay_ok cap w g E :
    hoare (lay_ok cap) (modify (lay_setNormal w g)) (fun _ => lay_ok cap) E.
  Proof. intros l [n [Hn [H1 H2]]]. simpl. exists n. split; [lia|]. split; assumption. Qed.

  Lemma LowPassTransform_ok fc cap l : lay_ok cap l ->
    hoare (lay_ok cap) (LowPassTransform fc l) (fun _ => lay_ok cap) (lay_ok cap).
  Proof.
    intros Hl. unfold LowPassTransform.
    eapply h_seq; [apply check_fc_ok|].
    eapply h_seq; [apply lay_reset_ok|].
    eapply h_seq; [apply simple_loop_ok; auto|].
    apply setNormal_lay_ok.
  Qed.

  Lemma HighPassTransform_ok fc cap l : lay_ok cap l ->
    hoare (lay_ok cap) (HighPassTransform fc l) (fun _ => lay_ok cap) (lay_ok cap).
  Proof.
    intros Hl. unfold HighPassTransform.
    eapply h_seq; [apply check_fc_ok|].
    eapply h_seq; [apply lay_reset_ok|].
    eapply h_seq; [apply simple_loop_ok; auto|].
    apply setNormal_lay_ok.
  Qed.

  Lemma band_loop_ok (body : pzpair N -> M (layout N) unit) (last : pzpair N -> pzpair N -> M (layout N) unit) cap l :
    lay_ok cap l ->
    (forall p n, 0 <= n -> n + 4 <= cap * 2 ->
        hoare (lay_n (cap * 2) n) (body p) (fun _ => lay_n (cap * 2) (n + 4)) (lay_ok (cap * 2))) ->
    (forall p p' n, 0 <= n -> n + 2 <= cap * 2 ->
        hoare (lay_n (cap * 2) n) (last p p') (fun _ => lay_n (cap * 2) (n + 2)) (lay_ok (cap * 2))) ->
    hoare (lay_n (cap * 2) 0)
      (mfor (zrange (Z.quot (l_numPoles l) 2)) (fun i => do p <- lift (lay_getPair l i); body p) ;;
       (if Z.odd (l_numPoles l) then
          do p <- lift (lay_getPair l (Z.quot (l_numPoles l) 2));
          do p' <- lift (lay_getPair l (Z.quot (l_numPoles l) 2));
          last p p'
        else ret tt))
      (fun _ => lay_ok (cap * 2)) (lay_ok (cap * 2)).
  Proof.
    intros Hl Hb Hlast. pose proof Hl as [n0' [Hn [H1 H2]]].
    assert (Hp : npoles (l_numPoles l) <= cap) by (rewrite npoles_pos; lia).
    unfold npoles in Hp.
    eapply h_seq.
    - apply (pairs_loop_ok (cap * 2) _ (Z.quot (l_numPoles l) 2) 4); [lia|]. intros i Hi n ->.
      destruct (lay_getPair_val cap l i Hl) as [p Hpair].
      { rewrite !quot2_pos in * by lia. split; [lia|]. eapply Z.lt_le_trans; [exact (proj2 Hi)|]. apply Z.div_le_mono; lia. }
            rewrite Hpair. unfold lift. rewrite !ret_bind.
      apply Hb; destruct (Z.odd (l_numPoles l)); lia.
    - destruct (Z.odd (l_numPoles l)) eqn:Hodd; cbv iota in Hp.
      + destruct (lay_getPair_val cap l (Z.quot (l_numPoles l) 2) Hl) as [p Hpair].
        { rewrite !quot2_pos by lia.
          pose proof (Z.div_mod (l_numPoles l) 2 ltac:(lia)). rewrite Zmod_odd, Hodd in H.
          pose proof (Z.div_mod (l_numPoles l + 1) 2 ltac:(lia)).
          pose proof (Z.mod_pos_bound (l_numPoles l + 1) 2 ltac:(lia)).
          pose proof (Z.div_pos (l_numPoles l) 2). lia. }
                set (m := 4 * Z.max 0 (Z.quot (l_numPoles l) 2)).
        rewrite Hpair. unfold lift. rewrite !ret_bind.
        eapply h_conseq; [apply Hlast with (n := m); lia| | |]; auto.
        intros u l' H. eexists. split; [|exact H]. lia.
      + intros l' H. simpl. eexists. split; [|exact H]. lia.
  Qed.

  Lemma BandPassTransform_ok fc fw cap l : lay_ok cap l ->
    hoare (lay_ok (cap * 2)) (BandPassTransform fc fw l) (fun _ => lay_ok (cap * 2)) (lay_ok (cap * 2)).
  Proof.
    intros Hl. unfold BandPassTransform.
    eapply h_seq; [apply check_fc_ok|].
    eapply h_seq; [apply lay_reset_ok|].
    set (p := bp_params fc fw).
    assert (Hb := band_loop_ok
      (fun pz => lay_addConj (cfst (bp_transform p (cfst (poles pz)))) (cfst (bp_transform p (cfst (zeros pz)))) ;;
                 lay_addConj (csnd (bp_transform p (cfst (poles pz)))) (csnd (bp_transform p (cfst (zeros pz)))))
      (fun pz pz' => lay_add2 (bp_transform p (cfst (poles pz))) (bp_transform p (cfst (zeros pz')))) cap l Hl).
    assert (Hb' := Hb ltac:(intros; eapply h_seq; [apply lay_addConj_ok; lia|];
                            replace (n + 4) with (n + 2 + 2) by lia; apply lay_addConj_ok; lia)
                      ltac:(intros; apply lay_add2_ok; lia)).
    eapply h_assoc; [exact Hb'|]. apply setNormal_lay_ok.
  Qed.

  Lemma BandStopTransform_ok fc fw cap l : lay_ok cap l ->
    hoare (lay_ok (cap * 2)) (BandStopTransform fc fw l) (fun _ => lay_ok (cap * 2)) (lay_ok (cap * 2)).
  Proof.
    intros Hl. unfold BandStopTransform.
    eapply h_seq; [apply check_fc_ok|].
    eapply h_seq; [apply lay_reset_ok|].
    set (p := bs_params fc fw).
    assert (Hb := band_loop_ok
      (fun pz => 
        let pp := bs_transform p (cfst (poles pz)) in
        let zz := bs_transform p (cfst (zeros pz)) in
        let z2 := if c_eqb (csnd zz) (cfst zz) then c_conj (cfst zz) else csnd zz in
        lay_addConj (cfst pp) (cfst zz) ;;
        lay_addConj (csnd pp) z2)
      (fun pz pz' => lay_add2 (bs_transform p (cfst (poles pz))) (bs_transform p (cfst (zeros pz')))) cap l Hl).
    assert (Hb' := Hb ltac:(intros; eapply h_seq; [apply lay_addConj_ok; lia|];
                            replace (n + 4) with (n + 2 + 2) by lia; apply lay_addConj_ok; lia)
                      ltac:(intros; apply lay_add2_ok; lia)).
    eapply h_assoc; [exact Hb'|].
    destruct (nltb N fc (nlit N 1 4)); apply setNormal_lay_ok.
  Qed.

  Lemma dig_transform_ok s q cap l : lay_ok cap l ->
    hoare (lay_ok (maxDigital s cap)) (dig_transform s q l)
          (fun _ => lay_ok (maxDigital s cap)) (lay_ok (maxDigital s cap)).
  Proof.
    intros Hl. unfold maxDigital, dig_transform. destruct s; simpl.
    - apply LowPassTransform_ok; auto.
    - apply HighPassTransform_ok; auto.
    - apply BandPassTransform_ok; auto.
    - apply BandStopTransform_ok; auto.
    - apply LowPassTransform_ok; auto.
    - apply HighPassTransform_ok; auto.
    - eapply h_seq; [apply BandPassTransform_ok; auto|]. apply setNormal_lay_ok.
  Qed.

  (** cascade *)
  Definition cas_ok (ms : Z) (c : cascade N) : Prop :=
    c_maxStages c = ms /\ Z.of_nat (length (c_stages c)) = ms /\ 0 <= c_numStages c <= ms.

  Lemma setCoefficients_not_ub a0 a1 a2 b0 b1 b2 (b : biquad N) :
    setCoefficients a0 a1 a2 b0 b1 b2 b <> UB.
  Proof.
    unfold setCoefficients, bind, throw_if.
    destruct (is_nan a0); [discriminate|].
    destruct (is_nan a1); [discriminate|].
    destruct (is_nan a2); [discriminate|].
    destruct (is_nan b0); [discriminate|].
    destruct (is_nan b1); [discriminate|].
    destruct (is_nan b2); [discriminate|].
    simpl. discriminate.
  Qed.

  Lemma setPoleZeroPair_not_ub p (b : biquad N) : setPoleZeroPair p b <> UB.
  Proof.
    unfold setPoleZeroPair, setOnePole, setTwoPole, two_coeffs.
    destruct (pz_isSinglePole p).
    - unfold bind, throw_if.
      destruct (nneqb (im (cfst (poles p))) (nofZ N 0)); [discriminate|]. simpl.
      destruct (nneqb (im (cfst (zeros p))) (nofZ N 0)); [discriminate|]. simpl.
      apply setCoefficients_not_ub.
    - destruct (nneqb (im (cfst (poles p))) (nofZ N 0)).
      + destruct (negb (c_eqb (csnd (poles p)) (c_conj (cfst (poles p))))); [discriminate|].
        destruct (nneqb (im (cfst (zeros p))) (nofZ N 0)).
        * destruct (negb (c_eqb (csnd (zeros p)) (c_conj (cfst (zeros p))))); [discriminate|].
          apply setCoefficients_not_ub.
        * destruct (nneqb (im (csnd (zeros p))) (nofZ N 0)); [discriminate|]. apply setCoefficients_not_ub.
      + destruct (nneqb (im (csnd (poles p))) (nofZ N 0)); [discriminate|].
        destruct (nneqb (im (cfst (zeros p))) (nofZ N 0)).
        * destruct (negb (c_eqb (csnd (zeros p)) (c_conj (cfst (zeros p))))); [discriminate|].
          apply setCoefficients_not_ub.
        * destruct (nneqb (im (csnd (zeros p))) (nofZ N 0)); [discriminate|]. apply setCoefficients_not_ub.
  Qed.

  Lemma resp_loop_ok z1 z2 : forall (n : nat) (l : list (biquad N)) ch cb, (n <= length l)%nat ->
    exists r, resp_loop z1 z2 l n ch cb = Val r.
  Proof.
    induction n as [|n IH]; intros l ch cb H.
    - destruct l; eexists; reflexivity.
    - destruct l as [|b l]; cbn [length] in H; [exfalso; lia|]. simpl. apply IH. lia.
  Qed.

  Lemma cas_response_ok ms c f : cas_ok ms c ->
    cas_response c f <> Undef /\
    ((cas_response c f = Exc E_maxF /\ ngtb f (nlit N 1 2) = true) \/
     (cas_response c f = Exc E_minF /\ ngtb f (nlit N 1 2) = false /\ nltb N f (nofZ N 0) = true) \/
     (ngtb f (nlit N 1 2) = false /\ nltb N f (nofZ N 0) = false /\ exists r, cas_response c f = Val r)).
  Proof.
    intros (H1 & H2 & H3). unfold cas_response, othrow_if, obind.
    destruct (ngtb f (nlit N 1 2)); [split; [discriminate|left; auto]|].
    destruct (nltb N f (nofZ N 0)); [split; [discriminate|right; left; auto]|].
    destruct (polar_some (nofZ N 1) (nopp N (nmul N (nmul N (nofZ N 2) (npi N)) f))) as [c1 ->].
    destruct (polar_some (nofZ N 1) (nmul N (nofZ N (-2)) (nmul N (nmul N (nofZ N 2) (npi N)) f))) as [c2 ->].
    simpl.
    destruct (resp_loop_ok c1 c2 (Z.to_nat (c_numStages c)) (c_stages c) (c_of (nofZ N 1)) (c_of (nofZ N 1))) as [[r1 r2] Hr]; [lia|].
    rewrite Hr. simpl. split; [discriminate|right; right; eauto].
  Qed.

  Lemma setLayout_gen ms d : 0 <= Z.quot (l_numPoles d + 1) 2 <= ms ->
    (forall i, 0 <= i < Z.quot (l_numPoles d + 1) 2 -> exists p, lay_getPair d i = Val p) ->
    hoare (cas_ok ms) (setLayout d)
      (fun _ c => cas_ok ms c /\ c_numStages c = Z.quot (l_numPoles d + 1) 2) (cas_ok ms).
  Proof.
    intros Hq Hd. unfold setLayout.
    set (ns := Z.quot (l_numPoles d + 1) 2) in *.
    set (I := fun c => cas_ok ms c /\ c_numStages c = ns).
    assert (HI : forall c, I c -> cas_ok ms c) by (intros c [H _]; exact H).
    assert (Hstage : forall i m, 0 <= i < ms -> (forall b, m b <> UB) ->
              hoare I (on_stage i m) (fun _ => I) (cas_ok ms)).
    { intros i m Hi Hm c [(H1 & H2 & H3) H4]. unfold on_stage, bind, get. simpl.
      rewrite (aget_nth _ _ _ biquad0) by lia. simpl.
      specialize (Hm (nth (Z.to_nat i) (c_stages c) biquad0)).
      destruct (m _) as [b a|e b|] eqn:Eb; [| |congruence].
      - rewrite aset_some by lia. simpl. unfold I, cas_ok. simpl. rewrite upd_length. auto.
      - rewrite aset_some by lia. simpl. unfold cas_ok. simpl. rewrite upd_length. auto. }
    eapply h_seq with (R := I).
    { intros c (H1 & H2 & H3). simpl. unfold I, cas_ok. simpl. repeat split; auto; lia. }
    apply h_get_bind. intros c [(C1 & C2 & C3) C4].
    apply h_conseq with (P' := I) (Q' := fun _ => I) (E' := cas_ok ms);
      [|intros s ->; repeat split; auto; lia|auto|auto].
    rewrite C1, C4.
    eapply h_seq; [apply (h_throw_if _ _ _ (fun _ => I)); auto|].
    eapply h_seq.
    { eapply h_conseq; [apply (h_mfor ms (fun _ => I) (fun i => on_stage i setIdentity) (cas_ok ms))| | |]; auto.
      - intros i Hi. apply Hstage; [exact Hi|]. apply setCoefficients_not_ub.
      - intros u s Hs. exact Hs. }
    eapply h_seq.
    { eapply h_conseq; [apply (h_mfor ns (fun _ => I) _ (cas_ok ms))| | |]; auto.
      - intros i Hi. destruct (Hd i Hi) as [p Hp].
        rewrite Hp. unfold lift. rewrite ret_bind. apply Hstage; [lia|]. apply setPoleZeroPair_not_ub.
      - intros u s Hs. exact Hs. }
    apply h_get_bind. intros c' [Hc' Hn'].
    destruct (cas_response_ok ms c' (ndiv N (l_normalW d) (nmul N (nofZ N 2) (npi N))) Hc') as [Hu _].
    eapply h_lift_bind.
    { intros s ->. destruct (cas_response c' _); auto. }
    intros r _. apply h_conseq with (P' := I) (Q' := fun _ => I) (E' := cas_ok ms);
      [|intros s ->; split; auto|auto|auto].
    unfold cas_applyScale. apply h_get_bind. intros c'' [Hc2 Hn2].
    destruct (Z.ltb_spec (c_numStages c'') 1).
    - intros s ->. split; [exact Hc2|exact Hn2].
    - eapply h_conseq; [apply (Hstage 0)| | |]; auto.
      + lia.
      + intros b. discriminate.
      + intros s ->. split; auto.
  Qed.

  Lemma setLayout_ok ms cap d : ms = Z.quot (cap + 1) 2 -> lay_ok cap d ->
    hoare (cas_ok ms) (setLayout d) (fun _ => cas_ok ms) (cas_ok ms).
  Proof.
    intros Hms Hd. pose proof Hd as [n [Hn [D1 D2]]].
    intros c Hc. pose proof (setLayout_gen ms d) as G.
    assert (Hq : 0 <= Z.quot (l_numPoles d + 1) 2 <= ms).
    { rewrite Hms, !quot2_pos by lia. split; [apply Z.div_pos; lia|]. apply Z.div_le_mono; lia. }
    specialize (G Hq (fun i => lay_getPair_val cap d i Hd) c Hc).
    destruct (setLayout d c); [exact (proj1 G)|exact G|exact G].
  Qed.

  (** the whole filter *)
  Definition pf_ok (k : kind) (FO : Z) (p : pf N) : Prop :=
    cas_ok (maxStagesOf (snd k) FO) (pf_cas p) /\ lay_ok (maxDigital (snd k) FO) (pf_dig p) /\
    proto_ok FO (pf_ana p).

  Lemma base_setup_ok k FO o q : 1 <= FO -> o <= FO -> in_int (2 * o) = true ->
    hoare (pf_ok k FO) (base_setup k o q) (fun _ => pf_ok k FO) (pf_ok k FO).
  Proof.
    intros HF Ho Hi. unfold base_setup.
    eapply h_seq with (R := pf_ok k FO).
    { apply h_zoom. intros p (P1 & P2 & P3) a ->.
      pose proof (ana_design_ok k FO o q Ho HF Hi (pf_ana p) P3) as H.
      destruct (ana_design k o q (pf_ana p)); auto; repeat split; auto; apply P1. }
    apply h_get_bind. intros f Hf.
    apply (h_seq _ _ _ _ (pf_ok k FO)).
    { apply h_zoom. intros p -> d ->. destruct Hf as (P1 & P2 & P3).
      pose proof (dig_transform_ok (snd k) q FO (p_lay (pf_ana f)) P3 (pf_dig f) P2) as H.
      destruct (dig_transform _ _ _ _); auto; split; auto; split; auto. }
    apply h_get_bind. intros g (P1 & P2 & P3).
    apply h_zoom. intros p -> c ->.
    pose proof (setLayout_ok (maxStagesOf (snd k) FO) _ (pf_dig g) eq_refl P2 (pf_cas g) P1) as H.
    destruct (setLayout (pf_dig g) (pf_cas g)); auto; split; auto; split; auto.
  Qed.

  Lemma setupN_ok k FO r q : 1 <= FO -> in_int (2 * FO) = true -> order_ok r ->
    hoare (pf_ok k FO) (setupN k FO r q) (fun _ => pf_ok k FO) (pf_ok k FO).
  Proof.
    intros HF HI Hr. unfold setupN. destruct r as [o|].
    - destruct (Z.ltb_spec FO o).
      + intros p Hp. exact Hp.
      + intros p Hp. apply (base_setup_ok k FO o q HF H Hr p Hp).
    - apply base_setup_ok; auto; lia.
  Qed.

  Lemma setup_ok k FO r sr q : 1 <= FO -> in_int (2 * FO) = true -> order_ok r ->
    hoare (pf_ok k FO) (setup k FO r sr q) (fun _ => pf_ok k FO) (pf_ok k FO).
  Proof.
    intros HF HI Hr. unfold setup. destruct r as [o|].
    - destruct (Z.ltb_spec FO o).
      + intros p Hp. exact Hp.
      + intros p Hp. apply (base_setup_ok k FO o _ HF H Hr p Hp).
    - apply base_setup_ok; auto; lia.
  Qed.

  Lemma maxStages_pos (k : kind) FO : 1 <= FO -> 1 <= maxStagesOf (snd k) FO.
  Proof.
    intros H. unfold maxStagesOf, maxDigital. destruct (is_band (snd k)); rewrite quot2_pos by lia;
    apply Z.div_le_lower_bound; lia.
  Qed.

  Lemma pf_init_ok k FO : 1 <= FO -> pf_ok k FO (pf_init k FO).
  Proof.
    intros H. pose proof (maxStages_pos k FO H) as HM.
    assert (HD : 1 <= maxDigital (snd k) FO) by (unfold maxDigital; destruct (is_band (snd k)); lia).
    repeat split.
    - simpl. rewrite repeat_length. lia.
    - simpl. lia.
    - simpl. lia.
    - exists 0. split; [lia|]. split; [reflexivity|]. simpl. unfold layout_storage.
      rewrite repeat_length. apply Z2Nat.id. rewrite quot2_pos by lia. apply Z.div_pos; lia.
    - exists 0. split; [lia|]. destruct k as [fam s]; destruct fam; simpl; destruct (is_shelf s); simpl;
      (split; [reflexivity|]; simpl; unfold layout_storage;
       rewrite repeat_length; apply Z2Nat.id; rewrite quot2_pos by lia; apply Z.div_pos; lia).
  Qed.

  Definition filt_ok (t : topo) (k : kind) (FO : Z) (f : filt N) : Prop :=
    pf_ok k FO (fl_pf f) /\ Z.of_nat (length (fl_states f)) = maxStagesOf (snd k) FO /\
    Forall (fun s => st_topo s = t) (fl_states f).

  Lemma filt_init_ok t k FO : 1 <= FO -> filt_ok t k FO (filt_init t k FO).
  Proof.
    intros H. split; [apply pf_init_ok; auto|]. split; simpl.
    - rewrite repeat_length. pose proof (maxStages_pos k FO H). lia.
    - apply Forall_forall. intros s Hs. apply repeat_spec in Hs. subst. destruct t; reflexivity.
  Qed.

  Lemma cs_loop_inv : forall (stages : list (biquad N)) states x t,
    length (fst (cs_loop stages states x)) = length states /\
    (Forall (fun s => st_topo s = t) states ->
     Forall (fun s => st_topo s = t) (fst (cs_loop stages states x))).
  Proof.
    induction stages as [|b l IH]; intros [|s states] x t; simpl; auto.
    destruct (st_filter s b x) as [s' y] eqn:Es.
    destruct (cs_loop l states y) as [st' z] eqn:El. simpl.
    specialize (IH states y t). rewrite El in IH. simpl in IH. destruct IH as [I1 I2].
    split; [lia|]. intros HF. inversion HF; subst. constructor; auto.
    destruct s; simpl in Es; inversion Es; reflexivity.
  Qed.

  Lemma st_reset_topo (s : st N) : st_topo (st_reset s) = st_topo s.
  Proof. destruct s; reflexivity. Qed.

  Lemma filt_reset_ok t k FO f : filt_ok t k FO f -> filt_ok t k FO (filt_reset f).
  Proof.
    intros (H1 & H2 & H3). repeat split; simpl; try apply H1.
    - rewrite map_length. exact H2.
    - apply Forall_map. eapply Forall_impl; [|exact H3]. intros s <-. apply st_reset_topo.
  Qed.

  Lemma step_ok t k FO o f : 1 <= FO -> in_int (2 * FO) = true -> op_ok o -> filt_ok t k FO f ->
    exists f', step k FO o f = Some f' /\ filt_ok t k FO f'.
  Proof.
    intros HF HI Ho Hf. pose proof Hf as (H1 & H2 & H3). destruct o; simpl in *.
    - unfold filt_setupN, on_pf, zoom. pose proof (setupN_ok k FO reqOrder q HF HI Ho (fl_pf f) H1) as H.
      destruct (setupN k FO reqOrder q (fl_pf f)); simpl; [| |contradiction]; eexists; (split; [reflexivity|split; auto]).
    - unfold filt_setup, on_pf, zoom. pose proof (setup_ok k FO reqOrder sampleRate q HF HI Ho (fl_pf f) H1) as H.
      destruct (setup k FO reqOrder sampleRate q (fl_pf f)); simpl; [| |contradiction]; eexists; (split; [reflexivity|split; auto]).
    - eexists. split; [reflexivity|]. unfold filt_filter, cs_filter.
      destruct (cs_loop_inv (cs_stages (fl_cs f)) (cs_states (fl_cs f)) x t) as [C1 C2].
      destruct (cs_loop (cs_stages (fl_cs f)) (cs_states (fl_cs f)) x) as [ss y]. simpl in *.
      repeat split; simpl; try apply H1; [lia|auto].
    - eexists. split; [reflexivity|]. apply filt_reset_ok; auto.
    - eexists. split; [reflexivity|]. apply filt_reset_ok; auto.
  Qed.

  Lemma steps_ok t k FO os : forall f, 1 <= FO -> in_int (2 * FO) = true -> Forall op_ok os ->
    filt_ok t k FO f -> exists f', steps k FO os f = Some f' /\ filt_ok t k FO f'.
  Proof.
    induction os as [|o os IH]; intros f HF HI Ho Hf; simpl; [eauto|].
    inversion Ho; subst. destruct (step_ok t k FO o f HF HI H1 Hf) as [f' [-> Hf']]. auto.
  Qed.

  Lemma cas_index_ok ms c i : cas_ok ms c ->
    (0 <= i < c_numStages c -> exists b, nth_error (c_stages c) (Z.to_nat i) = Some b /\ cas_index c i = Val b) /\
    (~ 0 <= i < c_numStages c -> cas_index c i = Exc E_index).
  Proof.
    intros (H1 & H2 & H3). unfold cas_index, othrow_if, obind. split; intros H.
    - destruct (Z.ltb_spec i 0); [lia|]. destruct (Z.leb_spec (c_numStages c) i); [lia|]. simpl.
      unfold aget. destruct (Z.ltb_spec i 0); [lia|].
      destruct (nth_error (c_stages c) (Z.to_nat i)) eqn:E; [simpl; eauto|].
      apply nth_error_None in E. lia.
    - destruct (Z.ltb_spec i 0); [reflexivity|]. destruct (Z.leb_spec (c_numStages c) i); [reflexivity|lia].
  Qed.

  Lemma getpairs_ok cap d : forall is, lay_ok cap d ->
    (forall i, In i is -> 0 <= i < Z.quot (l_numPoles d + 1) 2) ->
    exists ps, getpairs d is = Val ps /\ length ps = length is.
  Proof.
    induction is as [|i is IH]; intros Hd Hi; simpl; [eauto|].
    destruct (lay_getPair_val cap d i Hd) as [p ->]; [apply Hi; left; reflexivity|].
    destruct IH as [ps [-> Hl]]; auto. { intros j Hj. apply Hi. right. exact Hj. }
    simpl. eexists. split; [reflexivity|]. simpl. lia.
  Qed.

  Lemma In_zrange n i : In i (zrange n) -> 0 <= i < n.
  Proof.
    unfold zrange. intros H. apply in_map_iff in H. destruct H as [j [<- Hj]]. apply in_seq in Hj. lia.
  Qed.

  Lemma filt_getPoleZeros_ok t k FO f : filt_ok t k FO f ->
    exists ps, filt_getPoleZeros f = Val ps.
  Proof.
    intros ((_ & H & _) & _). unfold filt_getPoleZeros.
    destruct (getpairs_ok _ _ (zrange (Z.quot (l_numPoles (pf_dig (fl_pf f)) + 1) 2)) H) as [ps [-> _]]; eauto.
    intros i. apply In_zrange.
  Qed.
End Safe.
