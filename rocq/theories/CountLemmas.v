(** Proofs: how many stages a design uses, for every arithmetic. *)
From Coq Require Import ZArith List Bool Lia.
From Verif Require Import Num Outcome Types Biquad State Cascade Transforms Butterworth Chebyshev
  PoleFilter History Hoare Safe.
Import ListNotations.
Local Open Scope Z_scope.

Section Count.
  Context {N : num}.
  Hypothesis polar_total : forall r th, npolar N r th <> None.
  Notation lay_n := (lay_n (N := N)).
  Notation lay_ok := (lay_ok (N := N)).

  Lemma poles_design_n cap o (body : Z -> M (layout N) unit) (last : M (layout N) unit) :
    0 <= o <= cap ->
    (forall i n, 0 <= n -> n + 2 <= cap -> hoare (lay_n cap n) (body i) (fun _ => lay_n cap (n + 2)) (lay_ok cap)) ->
    (forall n, 0 <= n -> n + 1 <= cap -> hoare (lay_n cap n) last (fun _ => lay_n cap (n + 1)) (lay_ok cap)) ->
    hoare (lay_n cap 0) (mfor (zrange (Z.quot o 2)) body ;; (if Z.odd o then last else ret tt))
          (fun _ => lay_n cap o) (lay_ok cap).
  Proof.
    intros Ho Hb Hl. pose proof (npoles_pos o (proj1 Ho)) as E. unfold npoles in E.
    eapply h_seq.
    - apply (pairs_loop_ok cap body (Z.quot o 2) 2); [lia|]. intros i Hi n ->. apply Hb; destruct (Z.odd o); lia.
    - destruct (Z.odd o).
      + eapply h_conseq; [apply Hl with (n := 2 * Z.max 0 (Z.quot o 2)); lia|auto| |auto].
        intros u l H. rewrite E in H. exact H.
      + intros l H. simpl. rewrite Z.add_0_r in E. rewrite E in H. exact H.
  Qed.

  Lemma odd_normal_n cap o n body last w1 g1 w2 g2 :
    hoare (lay_n cap 0) (mfor (zrange (Z.quot o 2)) body ;; (if Z.odd o then last else ret tt))
          (fun _ => lay_n cap n) (lay_ok cap) ->
    hoare (lay_n cap 0) (mfor (zrange (Z.quot o 2)) body ;;
       (if Z.odd o then last ;; modify (lay_setNormal w1 g1) else modify (lay_setNormal w2 g2)))
          (fun _ => lay_n cap n) (lay_ok cap).
  Proof.
    intros H l Hl. specialize (H l Hl). unfold bind in *.
    destruct (mfor (zrange (Z.quot o 2)) body l) as [l' a|e l'|]; auto.
    destruct (Z.odd o).
    - destruct (last l') as [l'' b|e l''|]; exact H.
    - exact H.
  Qed.

  Definition fresh (cap : Z) (p : proto N) : Prop := proto_ok cap p /\ p_np p <= 0.

  Lemma fresh_if cap o (c : proto N -> bool) (m : M (proto N) unit) Q E : 1 <= o ->
    hoare (proto_ok cap) m Q E ->
    hoare (fresh cap) (do p <- get; if negb (p_np p =? o)%Z || c p then m else ret tt) Q E.
  Proof.
    intros Ho H p [Hp Hn]. unfold bind, get. 
    destruct (Z.eqb_spec (p_np p) o); [lia|]. simpl. exact (H p Hp).
  Qed.
  Lemma fresh_if1 cap o (m : M (proto N) unit) Q E : 1 <= o ->
    hoare (proto_ok cap) m Q E ->
    hoare (fresh cap) (do p <- get; if negb (p_np p =? o)%Z then m else ret tt) Q E.
  Proof.
    intros Ho H p [Hp Hn]. unfold bind, get. 
    destruct (Z.eqb_spec (p_np p) o); [lia|]. simpl. exact (H p Hp).
  Qed.

  Lemma reset_design cap (f : proto N -> proto N) (m : M (proto N) unit) Q : (forall p, p_lay (f p) = p_lay p) ->
    hoare (fun p => lay_n cap 0 (p_lay p)) m Q (proto_ok cap) ->
    hoare (proto_ok cap) (modify f ;; (on_lay (modify lay_reset) ;; m)) Q (proto_ok cap).
  Proof.
    intros Hf H. apply (h_seq _ _ _ _ (proto_ok cap)).
    { intros p Hp. unfold modify. red. rewrite Hf. exact Hp. }
    apply (h_seq _ _ _ _ (fun p => lay_n cap 0 (p_lay p))); [|exact H].
    apply (on_lay_ok unit cap _ (lay_ok cap) (fun _ => lay_n cap 0)). apply lay_reset_ok.
  Qed.

  Lemma ls_n cap o g d : 1 <= o <= cap -> in_int (2 * o) = true ->
    hoare (fresh cap) (ls_design o g d) (fun _ p => lay_n cap o (p_lay p)) (proto_ok cap).
  Proof.
    intros Ho Hi. unfold ls_design.
    intros p [Hp Hn]. unfold bind at 1, get at 1.
    destruct (Z.eqb_spec (p_np p) o); [lia|]. cbn [negb orb].
    revert p Hp Hn n. intros p Hp _ _. revert p Hp.
    change (hoare (proto_ok cap) (modify (fun p => MkProto o g d (p_lay p)) ;; (on_lay (modify lay_reset) ;;
      let '(sinh_u, cosh_u, (sinh_v, cosh_v)) := ls_consts o g d in
      do n2 <- or_ub (int_ub (2 * o));
      on_lay (ls_poles o (nofZ N n2) sinh_u cosh_u sinh_v cosh_v))) (fun _ p => lay_n cap o (p_lay p)) (proto_ok cap)).
    apply reset_design; [reflexivity|].
    destruct (ls_consts o g d) as [[su cu] [sv cv]].
    unfold int_ub. rewrite Hi. eapply h_or_ub_bind; [reflexivity|].
    apply (on_lay_ok unit cap _ (lay_n cap 0) (fun _ => lay_n cap o)).
    unfold ls_poles. apply poles_design_n; [lia| |].
    - intros i n Hn Hn2. apply lay_addConj_ok; auto.
    - intros n Hn Hn2. apply lay_add1_ok; lia.
  Qed.

  Lemma ana_design_n k cap o q : 1 <= o <= cap -> in_int (2 * o) = true ->
    hoare (fresh cap) (ana_design k o q) (fun _ p => lay_n cap o (p_lay p)) (proto_ok cap).
  Proof.
    intros Ho Hi. pose proof Hi as Hi2. rewrite Z.mul_comm in Hi2.
    unfold ana_design. destruct (fst k), (is_shelf (snd k)).
    - unfold bw_ls_design. apply fresh_if; [lia|]. apply reset_design; [reflexivity|].
      unfold int_ub. rewrite Hi2. eapply h_or_ub_bind; [reflexivity|].
      apply (on_lay_ok unit cap _ (lay_n cap 0) (fun _ => lay_n cap o)).
      unfold bw_ls_poles. apply poles_design_n; [lia| |].
      + intros i n Hn Hn2.
        match goal with |- context [or_ub (npolar N ?r ?t)] => destruct (polar_some polar_total r t) as [c Hc'] end.
        eapply h_or_ub_bind; [exact Hc'|].
        match goal with |- context [or_ub (npolar N ?r ?t)] => destruct (polar_some polar_total r t) as [d Hd'] end.
        eapply h_or_ub_bind; [exact Hd'|]. apply lay_addConj_ok; auto.
      + intros n Hn Hn2. apply lay_add1_ok; lia.
    - unfold bw_lp_design. apply fresh_if1; [lia|]. apply reset_design; [reflexivity|].
      unfold int_ub. rewrite Hi. eapply h_or_ub_bind; [reflexivity|].
      apply (on_lay_ok unit cap _ (lay_n cap 0) (fun _ => lay_n cap o)).
      unfold bw_lp_poles. apply poles_design_n; [lia| |].
      + intros i n Hn Hn2.
        match goal with |- context [or_ub (npolar N ?r ?t)] => destruct (polar_some polar_total r t) as [c Hc'] end.
        eapply h_or_ub_bind; [exact Hc'|]. apply lay_addConj_ok; auto.
      + intros n Hn Hn2. apply lay_add1_ok; lia.
    - unfold c1_ls_design. apply ls_n; auto.
    - unfold c1_lp_design. apply fresh_if; [lia|]. apply reset_design; [reflexivity|].
      destruct (c1_lp_consts o (q_db q)) as [sv cv].
      unfold int_ub. rewrite Hi. eapply h_or_ub_bind; [reflexivity|].
      apply (on_lay_ok unit cap _ (lay_n cap 0) (fun _ => lay_n cap o)).
      unfold c1_lp_poles. apply odd_normal_n. apply poles_design_n; [lia| |].
      + intros i n Hn Hn2. apply lay_addConj_ok; auto.
      + intros n Hn Hn2. apply lay_add1_ok; lia.
    - unfold c2_ls_design. apply ls_n; auto.
    - unfold c2_lp_design. apply fresh_if; [lia|]. apply reset_design; [reflexivity|].
      destruct (c2_lp_consts o (q_db q)) as [sv cv].
      unfold int_ub. rewrite Hi. eapply h_or_ub_bind; [reflexivity|].
      apply (on_lay_ok unit cap _ (lay_n cap 0) (fun _ => lay_n cap o)).
      unfold c2_lp_poles. apply poles_design_n; [lia| |].
      + intros i n Hn Hn2. apply lay_addConj_ok; auto.
      + intros n Hn Hn2. apply lay_add1_ok; lia.
  Qed.

  (** transforms *)
  Lemma simple_loop_n tr cap l n : 0 <= n <= cap -> lay_n cap n l ->
    hoare (lay_n cap 0) (simple_loop tr l) (fun _ => lay_n cap n) (lay_ok cap).
  Proof.
    intros Hn [H1 H2]. assert (Hl : lay_ok cap l) by (exists n; repeat split; auto; lia).
    unfold simple_loop. rewrite H1. pose proof (npoles_pos n (proj1 Hn)) as E. unfold npoles in E.
    eapply h_seq.
    - apply (pairs_loop_ok cap _ (Z.quot n 2) 2); [lia|]. intros i Hi m ->.
      destruct (lay_getPair_val cap l i Hl) as [p Hpair].
      { rewrite H1, !quot2_pos in * by lia. split; [lia|]. eapply Z.lt_le_trans; [exact (proj2 Hi)|]. apply Z.div_le_mono; lia. }
      rewrite Hpair. unfold lift. rewrite !ret_bind.
      apply lay_addConj_ok; try destruct (Z.odd n); lia.
    - destruct (Z.odd n) eqn:Hodd.
      + destruct (lay_getPair_val cap l (Z.quot n 2) Hl) as [p Hpair].
        { rewrite H1, !quot2_pos in * by lia.
          pose proof (Z.div_mod (n + 1) 2 ltac:(lia)).
          pose proof (Z.mod_pos_bound (n + 1) 2 ltac:(lia)).
          pose proof (Z.div_pos n 2). lia. }
        rewrite Hpair. unfold lift. rewrite !ret_bind.
        eapply h_conseq; [apply lay_add1_ok with (cap := cap) (n := 2 * Z.max 0 (Z.quot n 2)); lia|auto| |auto].
        intros u l' H. rewrite E in H. exact H.
      + intros l' H. simpl. rewrite Z.add_0_r in E. rewrite E in H. exact H.
  Qed.

  Lemma band_loop_n (body : pzpair N -> M (layout N) unit) (last : pzpair N -> pzpair N -> M (layout N) unit) cap l n :
    0 <= n <= cap -> lay_n cap n l ->
    (forall p n, 0 <= n -> n + 4 <= cap * 2 ->
        hoare (lay_n (cap * 2) n) (body p) (fun _ => lay_n (cap * 2) (n + 4)) (lay_ok (cap * 2))) ->
    (forall p p' n, 0 <= n -> n + 2 <= cap * 2 ->
        hoare (lay_n (cap * 2) n) (last p p') (fun _ => lay_n (cap * 2) (n + 2)) (lay_ok (cap * 2))) ->
    hoare (lay_n (cap * 2) 0)
      (mfor (zrange (Z.quot (l_numPoles l) 2)) (fun i => do p <- lift (lay_getPair l i); body p) ;;
       (if Z.odd (l_numPoles l) then
          do p <- lift (lay_getPair l (Z.quot (l_numPoles l) 2));
          do p' <- lift (lay_getPair l (Z.quot (l_numPoles l) 2));
          last p p'
        else ret tt))
      (fun _ => lay_n (cap * 2) (2 * n)) (lay_ok (cap * 2)).
  Proof.
    intros Hn [H1 H2] Hb Hlast. assert (Hl : lay_ok cap l) by (exists n; repeat split; auto; lia).
    rewrite H1. pose proof (npoles_pos n (proj1 Hn)) as E. unfold npoles in E.
    eapply h_seq.
    - apply (pairs_loop_ok (cap * 2) _ (Z.quot n 2) 4); [lia|]. intros i Hi m ->.
      destruct (lay_getPair_val cap l i Hl) as [p Hpair].
      { rewrite H1, !quot2_pos in * by lia. split; [lia|]. eapply Z.lt_le_trans; [exact (proj2 Hi)|]. apply Z.div_le_mono; lia. }
      rewrite Hpair. unfold lift. rewrite !ret_bind.
      apply Hb; destruct (Z.odd n); lia.
    - destruct (Z.odd n) eqn:Hodd.
      + destruct (lay_getPair_val cap l (Z.quot n 2) Hl) as [p Hpair].
        { rewrite H1, !quot2_pos in * by lia.
          pose proof (Z.div_mod (n + 1) 2 ltac:(lia)).
          pose proof (Z.mod_pos_bound (n + 1) 2 ltac:(lia)).
          pose proof (Z.div_pos n 2). lia. }
        rewrite Hpair. unfold lift. rewrite !ret_bind.
        eapply h_conseq; [apply Hlast with (n := 4 * Z.max 0 (Z.quot n 2)); lia|auto| |auto].
        intros u l' H. replace (2 * n) with (4 * Z.max 0 (Z.quot n 2) + 2) by lia. exact H.
      + intros l' H. unfold ret. replace (2 * n) with (4 * Z.max 0 (Z.quot n 2)) by lia. exact H.
  Qed.

  Lemma BandPassTransform_n fc fw cap l n : 0 <= n <= cap -> lay_n cap n l ->
    hoare (lay_ok (cap * 2)) (BandPassTransform fc fw l) (fun _ => lay_n (cap * 2) (2 * n)) (lay_ok (cap * 2)).
  Proof.
    intros Hn Hl. unfold BandPassTransform.
    eapply h_seq; [apply check_fc_ok|].
    eapply h_seq; [apply lay_reset_ok|].
    set (p := bp_params fc fw).
    assert (Hb := band_loop_n
      (fun pz => lay_addConj (cfst (bp_transform p (cfst (poles pz)))) (cfst (bp_transform p (cfst (zeros pz)))) ;;
                 lay_addConj (csnd (bp_transform p (cfst (poles pz)))) (csnd (bp_transform p (cfst (zeros pz)))))
      (fun pz pz' => lay_add2 (bp_transform p (cfst (poles pz))) (bp_transform p (cfst (zeros pz')))) cap l n Hn Hl).
    assert (Hb' := Hb ltac:(intros pq m Hm1 Hm2; eapply h_seq; [apply lay_addConj_ok; lia|];
                            replace (m + 4) with (m + 2 + 2) by lia; apply lay_addConj_ok; lia)
                      ltac:(intros; apply lay_add2_ok; lia)).
    eapply h_assoc; [exact Hb'|]. apply lay_setNormal_ok.
  Qed.

  Lemma BandStopTransform_n fc fw cap l n : 0 <= n <= cap -> lay_n cap n l ->
    hoare (lay_ok (cap * 2)) (BandStopTransform fc fw l) (fun _ => lay_n (cap * 2) (2 * n)) (lay_ok (cap * 2)).
  Proof.
    intros Hn Hl. unfold BandStopTransform.
    eapply h_seq; [apply check_fc_ok|].
    eapply h_seq; [apply lay_reset_ok|].
    set (p := bs_params fc fw).
    assert (Hb := band_loop_n
      (fun pz => 
        let pp := bs_transform p (cfst (poles pz)) in
        let zz := bs_transform p (cfst (zeros pz)) in
        let z2 := if c_eqb (csnd zz) (cfst zz) then c_conj (cfst zz) else csnd zz in
        lay_addConj (cfst pp) (cfst zz) ;;
        lay_addConj (csnd pp) z2)
      (fun pz pz' => lay_add2 (bs_transform p (cfst (poles pz))) (bs_transform p (cfst (zeros pz')))) cap l n Hn Hl).
    assert (Hb' := Hb ltac:(intros pq m Hm1 Hm2; eapply h_seq; [apply lay_addConj_ok; lia|];
                            replace (m + 4) with (m + 2 + 2) by lia; apply lay_addConj_ok; lia)
                      ltac:(intros; apply lay_add2_ok; lia)).
    eapply h_assoc; [exact Hb'|].
    destruct (nltb N fc (nlit N 1 4)); apply lay_setNormal_ok.
  Qed.

  (** poles of the digital layout *)
  Definition dpoles (s : shape) (o : Z) : Z := if is_band s then 2 * o else o.

  Lemma dig_transform_n s q cap l n : 0 <= n <= cap -> lay_n cap n l ->
    hoare (lay_ok (maxDigital s cap)) (dig_transform s q l)
          (fun _ => lay_n (maxDigital s cap) (dpoles s n)) (lay_ok (maxDigital s cap)).
  Proof.
    intros Hn Hl. unfold maxDigital, dpoles, dig_transform. destruct s; simpl.
    - unfold LowPassTransform. eapply h_seq; [apply check_fc_ok|]; eapply h_seq; [apply lay_reset_ok|];
      eapply h_seq; [apply simple_loop_n; eassumption|]; apply lay_setNormal_ok.
    - unfold HighPassTransform. eapply h_seq; [apply check_fc_ok|]; eapply h_seq; [apply lay_reset_ok|];
      eapply h_seq; [apply simple_loop_n; eassumption|]; apply lay_setNormal_ok.
    - apply BandPassTransform_n; auto.
    - apply BandStopTransform_n; auto.
    - unfold LowPassTransform. eapply h_seq; [apply check_fc_ok|]; eapply h_seq; [apply lay_reset_ok|];
      eapply h_seq; [apply simple_loop_n; eassumption|]; apply lay_setNormal_ok.
    - unfold HighPassTransform. eapply h_seq; [apply check_fc_ok|]; eapply h_seq; [apply lay_reset_ok|];
      eapply h_seq; [apply simple_loop_n; eassumption|]; apply lay_setNormal_ok.
    - eapply h_seq; [apply BandPassTransform_n; eassumption|]. apply lay_setNormal_ok.
  Qed.

  Lemma base_setup_n k FO o q (p' : pf N) : 1 <= o <= FO -> in_int (2 * o) = true ->
    base_setup k o q (pf_init k FO) = Ok p' tt ->
    c_numStages (pf_cas p') = Z.quot (dpoles (snd k) o + 1) 2 /\ l_numPoles (pf_dig p') = dpoles (snd k) o.
  Proof.
    intros Ho Hi E. assert (HF : 1 <= FO) by lia.
    pose proof (pf_init_ok (N := N) k FO HF) as (P1 & P2 & P3).
    unfold base_setup, on_ana, on_dig, on_cas, bind, get, zoom in E.
    assert (Hf : fresh FO (pf_ana (pf_init k FO))).
    { split; [exact P3|]. destruct k as [[] []]; simpl; lia. }
    pose proof (ana_design_n k FO o q Ho Hi _ Hf) as A.
    destruct (ana_design k o q (pf_ana (pf_init k FO))) as [a u|e a|]; try discriminate E.
    cbn [pf_ana pf_dig pf_cas] in E.
    pose proof (dig_transform_n (snd k) q FO (p_lay a) o ltac:(lia) A _ P2) as B.
    destruct (dig_transform (snd k) q (p_lay a) (pf_dig (pf_init k FO))) as [g u'|e g|]; try discriminate E.
    cbn [pf_ana pf_dig pf_cas] in E. destruct B as [B1 B2].
    assert (HD : dpoles (snd k) o <= maxDigital (snd k) FO /\ 0 <= dpoles (snd k) o) by (unfold dpoles, maxDigital; destruct (is_band (snd k)); lia).
    assert (HL : lay_ok (maxDigital (snd k) FO) g) by (exists (dpoles (snd k) o); repeat split; auto; lia).
    pose proof (setLayout_gen polar_total (maxStagesOf (snd k) FO) g) as G.
    assert (Hq : 0 <= Z.quot (l_numPoles g + 1) 2 <= maxStagesOf (snd k) FO).
    { unfold maxStagesOf. rewrite B1, !quot2_pos by lia. split; [apply Z.div_pos; lia|]. apply Z.div_le_mono; lia. }
    specialize (G Hq (fun i => lay_getPair_val _ g i HL) _ P1).
    destruct (setLayout g (pf_cas (pf_init k FO))) as [c u''|e c|]; try discriminate E.
    injection E as <-. cbn [pf_ana pf_dig pf_cas]. split; [|exact B1].
    rewrite (proj2 G), B1. reflexivity.
  Qed.

  Lemma stage_count t k FO r q (f : filt N) (o : Z) :
    o = match r with Some o => o | None => FO end ->
    1 <= o -> 1 <= FO -> in_int (2 * FO) = true ->
    filt_setupN k FO r q (filt_init t k FO) = Ok f tt ->
    filt_numStages f = (if is_band (snd k) then o else (o + 1) / 2) /\
    exists ps, filt_getPoleZeros f = Val ps /\ Z.of_nat (length ps) = filt_numStages f.
  Proof.
    intros Eo Ho HF HI E. unfold filt_setupN, on_pf, zoom in E.
    destruct (setupN k FO r q (fl_pf (filt_init t k FO))) as [p u|e p|] eqn:Es; try discriminate E.
    injection E as <-. destruct u.
    assert (B : o <= FO /\ base_setup k o q (pf_init k FO) = Ok p tt).
    { unfold setupN in Es. destruct r as [o'|]; subst o; [|split; [lia|exact Es]].
      unfold bind, throw_if in Es. destruct (Z.ltb_spec FO o'); [discriminate Es|]. split; [lia|exact Es]. }
    destruct B as [B1 B2].
    assert (Hi : in_int (2 * o) = true).
    { unfold in_int, int_min, int_max in *. apply andb_true_iff in HI. destruct HI as [I1 I2].
      apply Z.leb_le in I1, I2. apply andb_true_iff. split; apply Z.leb_le; lia. }
    destruct (base_setup_n k FO o q p ltac:(lia) Hi B2) as [C1 C2].
    pose proof (base_setup_ok polar_total k FO o q HF B1 Hi _ (pf_init_ok k FO HF)) as K.
    rewrite B2 in K. destruct K as (K1 & K2 & K3).
    assert (HD : 0 <= dpoles (snd k) o) by (unfold dpoles; destruct (is_band (snd k)); lia).
    split.
    - unfold filt_numStages. cbn [fl_pf]. rewrite C1, quot2_pos by lia. unfold dpoles.
      destruct (is_band (snd k)); [|reflexivity].
      symmetry. apply Z.div_unique with 1; lia.
    - unfold filt_getPoleZeros, filt_numStages. cbn [fl_pf]. rewrite C1, C2.
      destruct (getpairs_ok _ (pf_dig p) (zrange (Z.quot (dpoles (snd k) o + 1) 2)) K2) as [ps [Hp Hlen]].
      { intros i Hi'. rewrite C2. apply In_zrange. exact Hi'. }
      exists ps. split; [exact Hp|]. rewrite Hlen. unfold zrange. rewrite map_length, seq_length.
      apply Z2Nat.id. rewrite quot2_pos by lia. apply Z.div_pos; lia.
  Qed.
End Count.

(** after any history without a failed design of the same prototype *)
From Verif Require Import CallSpec CallLemmas.
Lemma stage_count_hist (N : num) : (forall r th, npolar N r th <> None) ->
  forall t k FO os (f g : filt N) r q,
  1 <= FO -> in_int (2 * FO) = true -> Forall op_ok os -> order_ok r -> 1 <= order_of FO r ->
  (is_shelf (snd k) = true -> exact_param (q_gain q)) -> (fst k <> Bw -> exact_param (q_db q)) ->
  steps k FO os (filt_init t k FO) = Some f -> calm k FO r q os (filt_init t k FO) ->
  filt_setupN k FO r q f = Ok g tt ->
  filt_numStages g = (if is_band (snd k) then order_of FO r else (order_of FO r + 1) / 2) /\
  exists ps, filt_getPoleZeros g = Val ps /\ Z.of_nat (length ps) = filt_numStages g.
Proof.
  intros P t k FO os f g r q HF HI Ho Hr H1 Hg Hd Hs Hc E.
  destruct (c24 N P t t k FO os f r q HF HI Ho Hr H1 Hg Hd Hs Hc) as [S _]. rewrite E in S. unfold same_outcome in S.
  destruct (filt_setupN k FO r q (filt_init t k FO)) as [g0 u|e g0|] eqn:E0; try contradiction. destruct u.
  destruct S as (_ & S2 & S3 & _).
  destruct (stage_count P t k FO r q g0 (order_of FO r) eq_refl H1 HF HI E0) as [C1 [ps [C2 C3]]].
  rewrite S2, S3. split; [exact C1|]. exists ps. split; [exact C2|exact C3].
Qed.
