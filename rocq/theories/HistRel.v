(** Proofs: setup does not depend on what the filter did before (C24). *)
From Coq Require Import ZArith List Bool Lia.
From Verif Require Import Num Outcome Types Biquad State Cascade Transforms Butterworth Chebyshev PoleFilter History Hoare Safe CallSpec.
Import ListNotations.
Local Open Scope Z_scope.

(** ** two runs with the same outcome *)
Definition rel {S1 S2 A} (R R' : S1 -> S2 -> Prop) (m1 : M S1 A) (m2 : M S2 A) : Prop :=
  forall s1 s2, R s1 s2 -> match m1 s1, m2 s2 with
    | Ok a x, Ok b y => R' a b /\ x = y
    | Throw e _, Throw e' _ => e = e'
    | UB, UB => True
    | _, _ => False
    end.
Lemma rel_bind {S1 S2 A B} (R1 R2 R3 : S1 -> S2 -> Prop) (m1 : M S1 A) m2 (k1 : A -> M S1 B) k2 :
  rel R1 R2 m1 m2 -> (forall x, rel R2 R3 (k1 x) (k2 x)) -> rel R1 R3 (bind m1 k1) (bind m2 k2).
Proof.
  intros H K s1 s2 HR. specialize (H s1 s2 HR). unfold bind. destruct (m1 s1), (m2 s2); try contradiction; auto.
  destruct H as [H ->]. apply K, H.
Qed.
Lemma rel_ret {S1 S2 A} (R : S1 -> S2 -> Prop) (a : A) : rel R R (ret a) (ret a).
Proof. intros s1 s2 H. split; auto. Qed.
Lemma rel_lift {S1 S2 A} (R : S1 -> S2 -> Prop) (o : oc A) : rel R R (lift o) (lift o).
Proof. intros s1 s2 H. destruct o; simpl; auto. Qed.
Lemma rel_or_ub {S1 S2 A} (R : S1 -> S2 -> Prop) (o : option A) : rel R R (or_ub o) (or_ub o).
Proof. intros s1 s2 H. destruct o; simpl; auto. Qed.
Lemma rel_throw_if {S1 S2} (R : S1 -> S2 -> Prop) b e : rel R R (throw_if b e) (throw_if b e).
Proof. intros s1 s2 H. destruct b; simpl; auto. Qed.
Lemma rel_modify {S1 S2} (R R' : S1 -> S2 -> Prop) f g : (forall a b, R a b -> R' (f a) (g b)) -> rel R R' (modify f) (modify g).
Proof. intros H s1 s2 HR. split; auto. Qed.
Lemma rel_mfor {S1 S2 I} (R : S1 -> S2 -> Prop) (l : list I) f g : (forall i, rel R R (f i) (g i)) -> rel R R (mfor l f) (mfor l g).
Proof.
  intros H. induction l as [|i l IH]; cbn [mfor]; [apply rel_ret|]. apply rel_bind with R; [apply H|intros _; exact IH].
Qed.
Lemma rel_if {S1 S2 A} (b : bool) (R R' : S1 -> S2 -> Prop) (m1 n1 : M S1 A) m2 n2 :
  rel R R' m1 m2 -> rel R R' n1 n2 -> rel R R' (if b then m1 else n1) (if b then m2 else n2).
Proof. destruct b; auto. Qed.

(** ** errors that code can throw *)
Definition only {S A} (m : M S A) : Prop := forall s, match m s with Throw e _ => design_error e = true | _ => True end.
Lemma only_bind {S A B} (m : M S A) (k : A -> M S B) : only m -> (forall x, only (k x)) -> only (bind m k).
Proof. intros H K s. specialize (H s). unfold bind. destruct (m s); auto. apply K. Qed.
Lemma only_ret {S A} (a : A) : only (S := S) (ret a).
Proof. intros s. exact I. Qed.
Lemma only_get {S} : only (S := S) get.
Proof. intros s. exact I. Qed.
Lemma only_modify {S} (f : S -> S) : only (modify f).
Proof. intros s. exact I. Qed.
Lemma only_put {S} (x : S) : only (put x).
Proof. intros s. exact I. Qed.
Lemma only_or_ub {S A} (o : option A) : only (S := S) (or_ub o).
Proof. intros s. destruct o; exact I. Qed.
Lemma only_throw_if {S} b e : design_error e = true -> only (S := S) (throw_if b e).
Proof. intros H s. destruct b; simpl; auto. Qed.
Lemma only_mfor {S I} (l : list I) (f : I -> M S unit) : (forall i, only (f i)) -> only (mfor l f).
Proof. intros H. induction l as [|i l IH]; cbn [mfor]; [apply only_ret|]. apply only_bind; auto. Qed.
Lemma only_zoom {S S1 A} (g : S -> S1) p (m : M S1 A) : only m -> only (zoom g p m).
Proof. intros H s. specialize (H (g s)). unfold zoom. destruct (m (g s)); auto. Qed.
Lemma only_if {S A} (b : bool) (m n : M S A) : only m -> only n -> only (if b then m else n).
Proof. destruct b; auto. Qed.

Section Rel.
  Context {N : num}.
  Implicit Types l : layout N.

  (** same capacity *)
  Definition LL l1 l2 : Prop := length (l_pairs l1) = length (l_pairs l2).
  Definition norm_is (o : option (T N * T N)) l : Prop :=
    match o with Some (w, g) => l_normalW l = w /\ l_normalGain l = g | None => True end.
  (** same poles and zeros; normalised as [o] says *)
  Definition LR (o : option (T N * T N)) l1 l2 : Prop :=
    LL l1 l2 /\ l_numPoles l1 = l_numPoles l2 /\ 0 <= l_numPoles l1 /\
    (forall i, 0 <= i < Z.quot (l_numPoles l1 + 1) 2 -> aget (l_pairs l1) i = aget (l_pairs l2) i) /\
    norm_is o l1 /\ norm_is o l2.

  Lemma LR_reset o l1 l2 : LL l1 l2 -> norm_is o l1 -> norm_is o l2 -> LR o (lay_reset l1) (lay_reset l2).
  Proof.
    intros H A B. repeat split; try exact H; cbn [l_numPoles lay_reset l_set_numPoles]; try lia.
    - intros i Hi. change (Z.quot (0 + 1) 2) with 0 in Hi. lia.
    - destruct o as [[]|]; exact A.
    - destruct o as [[]|]; exact B.
  Qed.
  Lemma getPair_eq o l1 l2 i : LR o l1 l2 -> lay_getPair l1 i = lay_getPair l2 i.
  Proof.
    intros (H1 & H2 & H3 & H4 & _). unfold lay_getPair. rewrite <- H2. destruct (Z.ltb_spec i 0); [reflexivity|].
    destruct (Z.leb_spec (Z.quot (l_numPoles l1 + 1) 2) i); [reflexivity|]. cbn [orb othrow_if obind]. rewrite H4 by lia. reflexivity.
  Qed.
  Lemma rel_write_inc o p dlt : dlt = 1 \/ dlt = 2 ->
    rel (fun l1 l2 => LR o l1 l2 /\ Z.odd (l_numPoles l1) = false) (LR o)
      (lay_write p ;; modify (fun l => l_set_numPoles (l_numPoles l + dlt) l))
      (lay_write p ;; modify (fun l => l_set_numPoles (l_numPoles l + dlt) l)).
  Proof.
    intros Hd l1 l2 [(H1 & H2 & H3 & H4 & H5 & H6) HO].
    unfold lay_write, bind, get, put, modify. unfold aset. rewrite <- H2. unfold LL in H1. rewrite <- H1.
    set (j := Z.quot (l_numPoles l1) 2). assert (J : j = l_numPoles l1 / 2) by (apply quot2_pos; lia).
    destruct (Z.ltb_spec j 0); [exfalso; rewrite J in *; pose proof (Z.div_pos (l_numPoles l1) 2); lia|]. cbn [orb].
    destruct (Z.leb_spec (Z.of_nat (length (l_pairs l1))) j); cbn [or_ub]; [exact I|]. unfold ret. split; [|reflexivity].
    assert (EV : l_numPoles l1 = 2 * j).
    { rewrite J. rewrite <- Z.negb_even in HO. apply negb_false_iff, Z.even_spec in HO. destruct HO as [m Hm]. rewrite Hm, Z.mul_comm, Z.div_mul; lia. }
    repeat split; cbn [l_numPoles l_pairs l_set_numPoles l_set_pairs l_normalW l_normalGain].
    - unfold LL. cbn [l_pairs l_set_pairs l_set_numPoles]. rewrite !upd_length. exact H1.
    - lia.
    - lia.
    - intros i Hi. assert (B : Z.quot (l_numPoles l1 + dlt + 1) 2 = j + 1).
      { rewrite quot2_pos by lia. rewrite EV. destruct Hd as [-> | ->].
        - replace (2 * j + 1 + 1) with ((j + 1) * 2) by lia. apply Z.div_mul. lia.
        - replace (2 * j + 2 + 1) with (1 + (j + 1) * 2) by lia. rewrite Z.div_add by lia. reflexivity. }
      rewrite B in Hi. unfold aget. destruct (Z.ltb_spec i 0); [lia|].
      destruct (Z.eq_dec i j) as [->|NE].
      + rewrite !upd_nth_error_same by lia. reflexivity.
      + rewrite !upd_nth_error_other by lia. specialize (H4 i). unfold aget in H4. destruct (Z.ltb_spec i 0); [lia|]. apply H4.
        split; [lia|]. rewrite quot2_pos by lia. rewrite EV. assert (j <= (2 * j + 1) / 2) by (apply Z.div_le_lower_bound; lia). lia.
    - destruct o as [[]|]; exact H5.
    - destruct o as [[]|]; exact H6.
  Qed.
  (** the common start of the three add functions *)
  Lemma rel_even {A} o (m1 m2 : M (layout N) A) : rel (fun l1 l2 => LR o l1 l2 /\ Z.odd (l_numPoles l1) = false) (LR o) m1 m2 ->
    rel (LR o) (LR o) (do l <- get; throw_if (Z.odd (l_numPoles l)) E_2nd_after_1st ;; m1) (do l <- get; throw_if (Z.odd (l_numPoles l)) E_2nd_after_1st ;; m2).
  Proof.
    intros H l1 l2 HR. unfold bind, get. pose proof HR as (_ & E & _). rewrite <- E. destruct (Z.odd (l_numPoles l1)) eqn:O; [reflexivity|].
    cbn [throw_if]. unfold ret. apply H. split; assumption.
  Qed.
  Lemma rel_add1 o p z : rel (LR o) (LR o) (lay_add1 p z) (lay_add1 p z).
  Proof.
    apply rel_even. eapply rel_bind; [apply rel_throw_if|intros _]. eapply rel_bind; [apply rel_throw_if|intros _].
    eapply rel_bind; [apply rel_lift|intros x]. apply rel_write_inc. auto.
  Qed.
  Lemma rel_addConj o p z : rel (LR o) (LR o) (lay_addConj p z) (lay_addConj p z).
  Proof.
    apply rel_even. eapply rel_bind; [apply rel_throw_if|intros _]. eapply rel_bind; [apply rel_throw_if|intros _]. apply rel_write_inc. auto.
  Qed.
  Lemma rel_add2 o p z : rel (LR o) (LR o) (lay_add2 p z) (lay_add2 p z).
  Proof.
    apply rel_even. eapply rel_bind; [apply rel_throw_if|intros _]. eapply rel_bind; [apply rel_throw_if|intros _]. apply rel_write_inc. auto.
  Qed.
  Lemma rel_setNormal o w g : rel (LR o) (LR (Some (w, g))) (modify (lay_setNormal w g)) (modify (lay_setNormal w g)).
  Proof.
    apply rel_modify. intros a b (H1 & H2 & H3 & H4 & _). repeat split; try assumption.
  Qed.

  (** ** analog designs *)
  Ltac loop := match goal with
    | |- rel _ _ (lay_add1 _ _) _ => apply rel_add1
    | |- rel _ _ (lay_addConj _ _) _ => apply rel_addConj
    | |- rel _ _ (lay_add2 _ _) _ => apply rel_add2
    | |- rel _ _ (ret _) _ => apply rel_ret
    | |- rel _ _ (or_ub _) _ => apply rel_or_ub
    | |- rel _ _ (lift _) _ => apply rel_lift
    | |- rel _ _ (mfor _ _) _ => apply rel_mfor; intros ?i
    | |- rel _ _ (bind _ _) _ => eapply rel_bind; [|intros ?x]
    | |- rel _ _ (if _ then _ else _) _ => apply rel_if
    end.
  Lemma rel_bw_lp o n n2 : rel (LR o) (LR o) (bw_lp_poles (N := N) n n2) (bw_lp_poles n n2).
  Proof. unfold bw_lp_poles. repeat loop. Qed.
  Lemma rel_bw_ls o n n2 gp gz : rel (LR o) (LR o) (bw_ls_poles (N := N) n n2 gp gz) (bw_ls_poles n n2 gp gz).
  Proof. unfold bw_ls_poles. repeat (loop || cbv zeta). Qed.
  Lemma rel_c2_lp o n fn s c : rel (LR o) (LR o) (c2_lp_poles (N := N) n fn s c) (c2_lp_poles n fn s c).
  Proof. unfold c2_lp_poles. repeat (loop || cbv zeta). Qed.
  Lemma rel_ls o n n2 a b c d : rel (LR o) (LR o) (ls_poles (N := N) n n2 a b c d) (ls_poles n n2 a b c d).
  Proof. unfold ls_poles. repeat (loop || cbv zeta). Qed.
  Definition c1_norm (n : Z) (db : T N) : T N * T N :=
    (n0 (N := N), if Z.odd n then n1 (N := N) else npow N (nofZ N 10) (ndiv N (nopp N db) (nofZ N 20))).
  Lemma rel_c1_lp o n db n2 s c : rel (LR o) (LR (Some (c1_norm n db))) (c1_lp_poles (N := N) n db n2 s c) (c1_lp_poles n db n2 s c).
  Proof.
    unfold c1_lp_poles, c1_norm. eapply rel_bind with (R2 := LR o); [repeat (loop || cbv zeta)|intros _].
    destruct (Z.odd n); [eapply rel_bind; [loop|intros _]|]; apply rel_setNormal.
  Qed.

  (** ** the design caches *)
  Definition ana_miss (k : kind) (o : Z) (q : params N) (p : proto N) : bool :=
    negb (p_np p =? o) ||
    match fst k, is_shelf (snd k) with
    | Bw, false => false
    | Bw, true => nneqb (p_gain p) (q_gain q)
    | Ch1, false | Ch2, false => nneqb (p_db p) (q_db q)
    | _, true => nneqb (p_db p) (q_db q) || nneqb (p_gain p) (q_gain q)
    end.
  Definition ana_body (k : kind) (o : Z) (q : params N) : M (proto N) unit :=
    match fst k, is_shelf (snd k) with
    | Bw, false =>
        modify (fun p => MkProto o (p_gain p) (p_db p) (p_lay p)) ;;
        on_lay (modify lay_reset) ;;
        do n2 <- or_ub (int_ub (2 * o));
        on_lay (bw_lp_poles o (nofZ N n2))
    | Bw, true =>
        modify (fun p => MkProto o (q_gain q) (p_db p) (p_lay p)) ;;
        on_lay (modify lay_reset) ;;
        do n2i <- or_ub (int_ub (o * 2));
        let n2 := nofZ N n2i in
        let g := npow N (npow N (nofZ N 10) (ndiv N (q_gain q) (nofZ N 20))) (ndiv N (nofZ N 1) n2) in
        on_lay (bw_ls_poles o n2 (ndiv N (nofZ N (-1)) g) (nopp N g))
    | Ch1, false =>
        modify (fun p => MkProto o (p_gain p) (q_db q) (p_lay p)) ;;
        on_lay (modify lay_reset) ;;
        let '(s, c) := c1_lp_consts o (q_db q) in
        do n2 <- or_ub (int_ub (2 * o));
        on_lay (c1_lp_poles o (q_db q) (nofZ N n2) s c)
    | Ch2, false =>
        modify (fun p => MkProto o (p_gain p) (q_db q) (p_lay p)) ;;
        on_lay (modify lay_reset) ;;
        let '(s, c) := c2_lp_consts o (q_db q) in
        do n2 <- or_ub (int_ub (2 * o));
        on_lay (c2_lp_poles o (ndiv N (npi N) (nofZ N n2)) s c)
    | _, true =>
        modify (fun p => MkProto o (q_gain q) (q_db q) (p_lay p)) ;;
        on_lay (modify lay_reset) ;;
        let '(su, cu, (sv, cv)) := ls_consts o (q_gain q) (q_db q) in
        do n2 <- or_ub (int_ub (2 * o));
        on_lay (ls_poles o (nofZ N n2) su cu sv cv)
    end.
  Lemma ana_design_split k o q p : ana_design k o q p = if ana_miss k o q p then ana_body k o q p else Ok p tt.
  Proof.
    destruct k as [fam s]. unfold ana_design, ana_miss, ana_body. cbn [fst snd]. destruct fam, (is_shelf s);
    unfold bw_lp_design, bw_ls_design, c1_lp_design, c2_lp_design, c1_ls_design, c2_ls_design, ls_design, bind at 1, get at 1; rewrite ?orb_false_r, ?orb_assoc;
    match goal with |- context [if ?b then _ else _] => destruct b; reflexivity end.
  Qed.

  (** the parameters the prototype was designed for *)
  Definition key (k : kind) (o : Z) (q : params N) (p : proto N) : Prop :=
    p_np p = o /\ (is_shelf (snd k) = true -> p_gain p = q_gain q) /\ (fst k <> Bw -> p_db p = q_db q).
  Lemma nneqb_exact (y x : T N) : exact_param x -> nneqb y x = false -> y = x.
  Proof. intros H E. apply H. unfold nneqb in E. apply negb_false_iff, E. Qed.
  Lemma hit_key k o q p : (is_shelf (snd k) = true -> exact_param (q_gain q)) -> (fst k <> Bw -> exact_param (q_db q)) ->
    ana_miss k o q p = false -> key k o q p.
  Proof.
    intros HG HD H. unfold ana_miss in H. apply orb_false_iff in H. destruct H as [H1 H2]. apply negb_false_iff, Z.eqb_eq in H1.
    split; [exact H1|]. destruct k as [fam s]. cbn [fst snd] in *. destruct fam, (is_shelf s);
    try (apply orb_false_iff in H2; destruct H2 as [H2 H3]);
    (split; intros Q; try discriminate Q; try (elim Q; reflexivity));
    apply nneqb_exact; auto; apply HG || apply HD; congruence.
  Qed.
  Lemma body_only k o q : only (ana_body k o q).
  Proof.
    assert (A1 : forall p z, only (lay_add1 (N := N) p z)).
    { intros p z. unfold lay_add1. apply only_bind; [apply only_get|intros l]. repeat (apply only_bind; [apply only_throw_if; reflexivity|intros _]).
      apply only_bind.
      - intros st. unfold pz_single, cpair_single, obind. repeat match goal with |- context [if ?b then _ else _] => destruct b end; simpl; auto;
        repeat match goal with |- context [othrow_if ?b _] => destruct b; simpl; auto end.
      - intros x. apply only_bind; [|intros _; apply only_modify]. apply only_bind; [apply only_get|intros l']. apply only_bind; [apply only_or_ub|intros ?; apply only_put]. }
    assert (A2 : forall p z, only (lay_addConj (N := N) p z)).
    { intros p z. unfold lay_addConj. apply only_bind; [apply only_get|intros l]. repeat (apply only_bind; [apply only_throw_if; reflexivity|intros _]).
      apply only_bind; [|intros _; apply only_modify]. apply only_bind; [apply only_get|intros l']. apply only_bind; [apply only_or_ub|intros ?; apply only_put]. }
    unfold ana_body, on_lay, bw_lp_poles, bw_ls_poles, c1_lp_poles, c2_lp_poles, ls_poles. destruct k as [fam s]. cbn [fst snd].
    destruct fam, (is_shelf s); cbv zeta;
    repeat match goal with |- only (let '(_, _) := ?x in _) => destruct x end;
    repeat match goal with
      | |- only (bind _ _) => apply only_bind; [|intros ?]
      | |- only (let '(_, _) := ?x in _) => destruct x
      | |- only (modify _) => apply only_modify
      | |- only (zoom _ _ _) => apply only_zoom
      | |- only (or_ub _) => apply only_or_ub
      | |- only (mfor _ _) => apply only_mfor; intros ?
      | |- only (if _ then _ else _) => apply only_if
      | |- only (ret _) => apply only_ret
      | |- only (lay_add1 _ _) => apply A1
      | |- only (lay_addConj _ _) => apply A2
      end.
  Qed.

  Definition body_norm (k : kind) (o : Z) (q : params N) (n : T N * T N) : T N * T N :=
    match fst k, is_shelf (snd k) with Ch1, false => c1_norm o (q_db q) | _, _ => n end.
  Definition PR (o : option (T N * T N)) (p1 p2 : proto N) : Prop := LR o (p_lay p1) (p_lay p2).
  (** only the shelves and Butterworth, Chebyshev II rely on the normalisation staying put *)
  Definition norm_pre (k : kind) (n : T N * T N) (p : proto N) : Prop :=
    match fst k, is_shelf (snd k) with Ch1, false => True | _, _ => norm_is (Some n) (p_lay p) end.
  Lemma rel_on_lay (R R' : layout N -> layout N -> Prop) m1 m2 : rel R R' m1 m2 ->
    rel (fun p1 p2 => R (p_lay p1) (p_lay p2)) (fun p1 p2 => R' (p_lay p1) (p_lay p2)) (on_lay (A := unit) m1) (on_lay m2).
  Proof. intros H p1 p2 HR. specialize (H _ _ HR). unfold on_lay, zoom. destruct (m1 (p_lay p1)), (m2 (p_lay p2)); auto. Qed.
  Lemma rel_start k n (f : proto N -> proto N) : (forall p, p_lay (f p) = p_lay p) ->
    rel (fun p1 p2 => LL (p_lay p1) (p_lay p2) /\ norm_pre k n p1 /\ norm_pre k n p2)
        (PR (match fst k, is_shelf (snd k) with Ch1, false => None | _, _ => Some n end))
        (modify f ;; on_lay (modify lay_reset)) (modify f ;; on_lay (modify lay_reset)).
  Proof.
    intros Hf p1 p2 (H & A & B). unfold bind, modify, on_lay, zoom. cbn. split; [|reflexivity]. unfold PR. cbn [p_set_lay p_lay]. rewrite !Hf.
    apply LR_reset; [exact H| |]; unfold norm_pre in *; destruct k as [[] s]; cbn [fst snd] in *; destruct (is_shelf s); auto; exact I.
  Qed.
  Lemma rel_seq3 {A} (R R2 R' : proto N -> proto N -> Prop) (a b : M (proto N) unit) (c : M (proto N) A) :
    rel R R2 (a ;; b) (a ;; b) -> rel R2 R' c c -> rel R R' (a ;; b ;; c) (a ;; b ;; c).
  Proof.
    intros H K p1 p2 HR. specialize (H p1 p2 HR). unfold bind in *. destruct (a p1) as [x []|e x|], (a p2) as [y []|e' y|]; auto.
    all: try (destruct (b x)); try (destruct (b y)); try contradiction; auto. destruct H as [H _]. apply K, H.
  Qed.
  Lemma rel_body k o q n :
    rel (fun p1 p2 => LL (p_lay p1) (p_lay p2) /\ norm_pre k n p1 /\ norm_pre k n p2) (PR (Some (body_norm k o q n))) (ana_body k o q) (ana_body k o q).
  Proof.
    pose proof (rel_start k n) as ST.
    destruct k as [fam s]. unfold ana_body, body_norm. cbn [fst snd] in *.
    destruct fam, (is_shelf s); cbv zeta; (eapply rel_seq3; [apply ST; reflexivity|]);
    repeat match goal with |- context [let '(_, _) := ?x in _] => destruct x end;
    (eapply rel_bind; [apply rel_or_ub|intros n2]); unfold PR; apply rel_on_lay;
    first [apply rel_bw_lp|apply rel_bw_ls|apply rel_c1_lp|apply rel_c2_lp|apply rel_ls].
  Qed.
  Lemma body_key k o q p : match ana_body k o q p with Ok p' _ | Throw _ p' => key k o q p' | UB => True end.
  Proof.
    unfold ana_body, key. destruct k as [fam s]. cbn [fst snd].
    assert (Z : forall (f : proto N -> proto N) (m : Z -> M (layout N) unit) i (K : proto N -> Prop), K (f p) -> (forall l x, K x -> K (p_set_lay l x)) ->
      match (modify f ;; on_lay (modify lay_reset) ;; do n2 <- or_ub (int_ub i); on_lay (m n2)) p with Ok p' _ | Throw _ p' => K p' | UB => True end).
    { intros f m i K Hf HK. unfold bind, modify, on_lay, zoom. destruct (int_ub i) as [n2|]; cbn [or_ub ret ub]; [|exact I].
      match goal with |- context [m n2 ?x] => destruct (m n2 x) end; auto. }
    destruct fam, (is_shelf s); cbv zeta; repeat match goal with |- context [let '(_, _) := ?x in _] => destruct x end;
    apply Z; try (intros l x Hx; exact Hx); repeat split; intros Q; try discriminate Q; elim Q; reflexivity.
  Qed.
  (** parts of the state that stay the same, even if an exception is thrown *)
  Definition keeps {S A} (P : S -> Prop) (m : M S A) : Prop := forall s, P s -> match m s with Ok s' _ | Throw _ s' => P s' | UB => True end.
  Lemma keeps_bind {S A B} (P : S -> Prop) (m : M S A) (f : A -> M S B) : keeps P m -> (forall x, keeps P (f x)) -> keeps P (bind m f).
  Proof. intros H K s Hs. specialize (H s Hs). unfold bind. destruct (m s); auto. apply K, H. Qed.
  Lemma keeps_mfor {S I} (P : S -> Prop) (l : list I) f : (forall i, keeps P (f i)) -> keeps P (mfor l f).
  Proof. intros H. induction l as [|i l IH]; cbn [mfor]; [intros s Hs; exact Hs|]. apply keeps_bind; [apply H|intros _; exact IH]. Qed.
  Lemma keeps_lay_write n pp dlt : keeps (norm_is (Some n)) (lay_write pp ;; modify (fun l => l_set_numPoles (l_numPoles l + dlt) l)).
  Proof. intros l H. unfold lay_write, bind, get, put, modify. destruct (aset _ _ _); cbn [or_ub]; [|exact I]. destruct n. exact H. Qed.
  Lemma keeps_addConj n p z : keeps (norm_is (Some n)) (lay_addConj (N := N) p z).
  Proof.
    unfold lay_addConj. apply keeps_bind; [intros l H; exact H|intros l0]. repeat (apply keeps_bind; [intros l H; destruct (_ : bool); exact H|intros _]).
    apply keeps_lay_write.
  Qed.
  Lemma keeps_add1 n p z : keeps (norm_is (Some n)) (lay_add1 (N := N) p z).
  Proof.
    unfold lay_add1. apply keeps_bind; [intros l H; exact H|intros l0]. repeat (apply keeps_bind; [intros l H; destruct (_ : bool); exact H|intros _]).
    apply keeps_bind; [intros l H; destruct (pz_single _ _); exact H || exact I|intros x]. apply keeps_lay_write.
  Qed.
  Lemma keeps_on_lay (P : layout N -> Prop) (m : M (layout N) unit) : keeps P m -> keeps (fun p => P (p_lay p)) (on_lay m).
  Proof. intros H p Hp. specialize (H _ Hp). unfold on_lay, zoom. destruct (m (p_lay p)); auto. Qed.
  Lemma body_keeps k o q n p : norm_pre k n p -> match ana_body k o q p with Ok p' _ | Throw _ p' => norm_pre k n p' | UB => True end.
  Proof.
    unfold norm_pre. assert (CASE : (fst k = Ch1 /\ is_shelf (snd k) = false) \/ ~ (fst k = Ch1 /\ is_shelf (snd k) = false)).
    { destruct (fst k), (is_shelf (snd k)); auto; right; intros [? ?]; discriminate. }
    destruct CASE as [[-> ->]|NC]; [destruct (ana_body k o q p); auto|].
    assert (K : keeps (fun p => norm_is (Some n) (p_lay p)) (ana_body k o q)).
    { unfold ana_body. destruct k as [fam s]. cbn [fst snd] in *. destruct fam, (is_shelf s); try (elim NC; split; reflexivity); cbv zeta;
      repeat match goal with |- context [let '(_, _) := ?x in _] => destruct x end;
      unfold bw_lp_poles, bw_ls_poles, c2_lp_poles, ls_poles; cbv zeta;
      repeat match goal with
      | |- keeps _ (bind _ _) => apply keeps_bind; [|intros ?]
      | |- keeps _ (mfor _ _) => apply keeps_mfor; intros ?
      | |- keeps _ (on_lay (modify _)) => apply keeps_on_lay; intros l H; destruct n; exact H
      | |- keeps _ (on_lay _) => apply keeps_on_lay
      | |- keeps _ (lay_addConj _ _) => apply keeps_addConj
      | |- keeps _ (lay_add1 _ _) => apply keeps_add1
      | |- keeps _ (if ?b then _ else _) => destruct b
      | |- keeps _ (or_ub ?x) => intros l H; destruct x; exact H || exact I
      | |- keeps _ (ret _) => intros l H; exact H
      | |- keeps _ (modify _) => intros l H; exact H
      end. }
    specialize (K p). destruct (fst k), (is_shelf (snd k)); try exact K; elim NC; split; reflexivity.
  Qed.
  Lemma body_cong k o q q' : (is_shelf (snd k) = true -> q_gain q = q_gain q') -> (fst k <> Bw -> q_db q = q_db q') -> ana_body k o q = ana_body k o q'.
  Proof.
    intros HG HD. unfold ana_body. destruct k as [fam s]. cbn [fst snd] in *. destruct fam, (is_shelf s); try (rewrite HG by reflexivity); try (rewrite HD by discriminate); reflexivity.
  Qed.

  (** ** transforms *)
  Lemma rel_check (R : layout N -> layout N -> Prop) fc : rel R R (check_fc (N := N) fc) (check_fc fc).
  Proof. unfold check_fc. eapply rel_bind; [apply rel_throw_if|intros _]. apply rel_throw_if. Qed.
  Lemma rel_reset : rel LL (LR None) (modify lay_reset) (modify lay_reset).
  Proof. apply rel_modify. intros a b H. apply LR_reset; [exact H|exact I|exact I]. Qed.
  Lemma rel_dig s q n l1 l2 : LR (Some n) l1 l2 ->
    rel LL (fun d1 d2 => exists n', LR (Some n') d1 d2) (dig_transform s q l1) (dig_transform s q l2).
  Proof.
    intros HR. pose proof (fun i => getPair_eq _ _ _ i HR) as GP. destruct n as [w g]. pose proof HR as (_ & EN & _ & _ & [W1 G1] & [W2 G2]).
    assert (EW : l_normalW l2 = l_normalW l1) by congruence. assert (EG : l_normalGain l2 = l_normalGain l1) by congruence.
    assert (FIN : forall w g (R : layout N -> layout N -> Prop) , (forall a b, R a b -> LR None a b) -> rel R (fun d1 d2 => exists n', LR (Some n') d1 d2) (modify (lay_setNormal w g)) (modify (lay_setNormal w g))).
    { intros w' g' R HRR a b H. pose proof (rel_setNormal None w' g' a b (HRR _ _ H)) as Q. cbn in *. destruct Q as [Q _]. split; [eexists; exact Q|reflexivity]. }
    assert (SL : forall tr, rel (LR None) (LR None) (simple_loop tr l1) (simple_loop tr l2)).
    { intros tr. unfold simple_loop. rewrite <- EN. cbv zeta. eapply rel_bind; [apply rel_mfor; intros i; rewrite <- (GP i); repeat loop|intros _].
      apply rel_if; [rewrite <- GP; repeat loop|loop]. }
    assert (BP0 : forall fc fw, rel LL (LR (Some (
      nmul N (nofZ N 2) (natan N (nsqrt N (nmul N (ntan N (nmul N (nadd N (bp_wc (bp_params fc fw)) (l_normalW l1)) (nlit N 1 2)))
                              (ntan N (nmul N (nadd N (bp_wc2 (bp_params fc fw)) (l_normalW l1)) (nlit N 1 2)))))), l_normalGain l1)))
       (BandPassTransform fc fw l1) (BandPassTransform fc fw l2)).
    { intros fc fw. unfold BandPassTransform. rewrite <- EN, EW, EG. cbv zeta. eapply rel_bind; [apply rel_check|intros _]. eapply rel_bind; [apply rel_reset|intros _].
      eapply rel_bind; [apply rel_mfor; intros i; rewrite <- (GP i); repeat loop|intros _].
      eapply rel_bind; [apply rel_if; [rewrite <- GP; repeat loop|loop]|intros _]. apply rel_setNormal. }
    unfold dig_transform. destruct s.
    - unfold LowPassTransform. rewrite EW, EG. eapply rel_bind; [apply rel_check|intros _]. eapply rel_bind; [apply rel_reset|intros _].
      cbv zeta. eapply rel_bind; [apply SL|intros _]. apply FIN; auto.
    - unfold HighPassTransform. rewrite EW, EG. eapply rel_bind; [apply rel_check|intros _]. eapply rel_bind; [apply rel_reset|intros _].
      cbv zeta. eapply rel_bind; [apply SL|intros _]. apply FIN; auto.
    - intros a b H. specialize (BP0 (q_fc q) (q_fw q) a b H). destruct (BandPassTransform _ _ l1 a), (BandPassTransform _ _ l2 b); auto.
      destruct BP0 as [Q ->]. split; [eexists; exact Q|reflexivity].
    - unfold BandStopTransform. rewrite <- EN, EG. cbv zeta. eapply rel_bind; [apply rel_check|intros _]. eapply rel_bind; [apply rel_reset|intros _].
      eapply rel_bind; [apply rel_mfor; intros i; rewrite <- (GP i); repeat loop|intros _].
      eapply rel_bind; [apply rel_if; [rewrite <- GP; repeat loop|loop]|intros _]. apply rel_if; apply FIN; auto.
    - unfold LowPassTransform. rewrite EW, EG. eapply rel_bind; [apply rel_check|intros _]. eapply rel_bind; [apply rel_reset|intros _].
      cbv zeta. eapply rel_bind; [apply SL|intros _]. apply FIN; auto.
    - unfold HighPassTransform. rewrite EW, EG. eapply rel_bind; [apply rel_check|intros _]. eapply rel_bind; [apply rel_reset|intros _].
      cbv zeta. eapply rel_bind; [apply SL|intros _]. apply FIN; auto.
    - eapply rel_bind; [apply BP0|intros _]. apply FIN. intros a b (H1 & H2 & H3 & H4 & _). repeat split; auto.
  Qed.

  (** ** setLayout *)
  Lemma rel_get {S1 S2 A} (R R' : S1 -> S2 -> Prop) (k1 : S1 -> M S1 A) k2 : (forall a b, R a b -> rel R R' (k1 a) (k2 b)) -> rel R R' (bind get k1) (bind get k2).
  Proof. intros H a b HR. exact (H a b HR a b HR). Qed.
  Lemma rel_mfor_idx {S1 S2} (n : Z) (R : Z -> S1 -> S2 -> Prop) f g : (forall i, 0 <= i < n -> rel (R i) (R (i + 1)) (f i) (g i)) ->
    rel (R 0) (R (Z.max 0 n)) (mfor (zrange n) f) (mfor (zrange n) g).
  Proof.
    intros H. assert (G : forall len j, (Z.of_nat (j + len) <= Z.max 0 n) -> rel (R (Z.of_nat j)) (R (Z.of_nat (j + len))) (mfor (map Z.of_nat (seq j len)) f) (mfor (map Z.of_nat (seq j len)) g)).
    { induction len as [|len IH]; intros j Hj.
      - rewrite Nat.add_0_r. apply rel_ret.
      - cbn [seq map mfor]. eapply rel_bind; [apply H; lia|intros _]. replace (Z.of_nat j + 1) with (Z.of_nat (S j)) by lia.
        replace (j + S len)%nat with (S j + len)%nat by lia. apply IH. lia. }
    specialize (G (Z.to_nat n) 0%nat ltac:(lia)). unfold zrange. replace (Z.max 0 n) with (Z.of_nat (0 + Z.to_nat n)) by lia. exact G.
  Qed.
  Lemma rel_refl {S A} (m : M S A) : rel eq eq m m.
  Proof. intros s1 s2 <-. destruct (m s1); auto. Qed.
  Definition CL (ms : Z) (c1 c2 : cascade N) : Prop :=
    c_maxStages c1 = ms /\ c_maxStages c2 = ms /\ Z.of_nat (length (c_stages c1)) = ms /\ Z.of_nat (length (c_stages c2)) = ms.
  Definition CI ms (j : Z) (c1 c2 : cascade N) : Prop :=
    CL ms c1 c2 /\ c_numStages c1 = c_numStages c2 /\ forall i, (Z.of_nat i < j) -> nth_error (c_stages c1) i = nth_error (c_stages c2) i.
  Lemma setCoefficients_indep a0 a1 a2 b0 b1 b2 (x y : biquad N) :
    match setCoefficients a0 a1 a2 b0 b1 b2 x, setCoefficients a0 a1 a2 b0 b1 b2 y with
    | Ok u _, Ok v _ => u = v | Throw e _, Throw e' _ => e = e' | UB, UB => True | _, _ => False end.
  Proof.
    unfold setCoefficients, bind, throw_if, throw, ret, put.
    destruct (is_nan a0), (is_nan a1), (is_nan a2), (is_nan b0), (is_nan b1), (is_nan b2); reflexivity.
  Qed.
  Lemma rel_identity ms i : 0 <= i < ms -> rel (CI ms i) (CI ms (i + 1)) (on_stage i setIdentity) (on_stage i setIdentity).
  Proof.
    intros Hi c1 c2 ((M1 & M2 & L1 & L2) & EN & EQ). 
    destruct (aget_some _ (c_stages c1) i ltac:(lia)) as [x X]. destruct (aget_some _ (c_stages c2) i ltac:(lia)) as [y Y].
    unfold on_stage, bind, get. rewrite X, Y. cbn [or_ub]. unfold ret, modify. pose proof (setCoefficients_indep n1 n0 n0 n1 n0 n0 x y) as SI.
    unfold setIdentity. unfold n0, n1 in SI. destruct (setCoefficients _ _ _ _ _ _ x) as [u []|e u|], (setCoefficients _ _ _ _ _ _ y) as [v []|e' v|]; try contradiction; auto.
    - subst v. rewrite !aset_some by lia. cbn. split; [|reflexivity].
      split; [|split]; cbn [c_set_stages c_numStages c_stages].
      + repeat split; cbn [c_set_stages c_maxStages c_stages]; rewrite ?upd_length; assumption.
      + exact EN.
      + intros j Hj. destruct (Nat.eq_dec (Z.to_nat i) j) as [<-|NE]; [rewrite !upd_nth_error_same by lia; reflexivity|].
        rewrite !upd_nth_error_other by exact NE. apply EQ. lia.
    - subst e'. rewrite !aset_some by lia. reflexivity.
  Qed.
  Lemma nth_error_ext' {A} (a b : list A) : length a = length b -> (forall i, (i < length a)%nat -> nth_error a i = nth_error b i) -> a = b.
  Proof.
    revert b. induction a as [|x a IH]; intros [|y b] L H; try discriminate; [reflexivity|]. pose proof (H 0%nat ltac:(simpl; lia)) as H0. injection H0 as ->.
    f_equal. apply IH; [simpl in L; lia|]. intros i Hi. apply (H (S i)). simpl. lia.
  Qed.
  Lemma rel_setLayout ms n d1 d2 : LR (Some n) d1 d2 -> rel (CL ms) eq (setLayout d1) (setLayout d2).
  Proof.
    intros HR. pose proof (fun i => getPair_eq _ _ _ i HR) as GP. destruct n as [w g]. pose proof HR as (_ & EN & _ & _ & [W1 G1] & [W2 G2]).
    unfold setLayout. rewrite <- EN, W1, G1, W2, G2.
    eapply rel_bind with (R2 := CI ms 0).
    { apply rel_modify. intros a b (M1 & M2 & L1 & L2). repeat split; auto. intros i Hi. lia. }
    intros _. apply rel_get. intros c1 c2 ((M1 & M2 & L1 & L2) & E2 & _). rewrite M1, M2, <- E2.
    eapply rel_bind; [apply rel_throw_if|intros _].
    eapply rel_bind with (R2 := eq).
    { intros a b Hab. pose proof (rel_mfor_idx ms (CI ms) (fun i => on_stage i setIdentity) (fun i => on_stage i setIdentity) (rel_identity ms) a b Hab) as Q.
      destruct (mfor _ _ a) as [x []|e x|], (mfor _ _ b) as [y []|e' y|]; auto. destruct Q as [((A1 & A2 & A3 & A4) & A5 & A6) _]. split; [|reflexivity].
      destruct x as [nx mx lx], y as [ny my ly]. cbn [c_numStages c_maxStages c_stages] in *. f_equal; try congruence.
      apply nth_error_ext'; [lia|]. intros i Hi. apply A6. lia. }
    intros _. eapply rel_bind with (R2 := eq).
    { apply rel_mfor. intros i. rewrite <- (GP i). apply rel_refl. }
    intros _. apply rel_refl.
  Qed.

  (** ** whole setup *)
  Definition init_norm (k : kind) : T N * T N := (l_normalW (p_lay (ana_init (N := N) k)), l_normalGain (p_lay (ana_init k))).
  Definition fresh_ana k FO : proto N := pf_ana (pf_init (N := N) k FO).
  Lemma fresh_norm k FO : norm_pre k (init_norm k) (fresh_ana k FO).
  Proof. destruct k as [fam s]. unfold norm_pre. cbn [fst snd]. unfold fresh_ana, pf_init, init_norm, ana_init. cbn [fst snd pf_ana]. destruct fam, (is_shelf s); cbn; auto. Qed.
  Lemma fresh_miss k FO o q : 1 <= o -> ana_miss k o q (fresh_ana k FO) = true.
  Proof.
    intros Ho. unfold ana_miss. apply orb_true_iff. left. apply negb_true_iff, Z.eqb_neq.
    destruct k as [fam s]. unfold fresh_ana, pf_init, ana_init. cbn [fst snd pf_ana]. destruct fam, (is_shelf s); cbn; lia.
  Qed.
  (** ** a prototype is right for one design *)
  Section For.
  Variables (k : kind) (FO : Z) (r1 : option Z) (q1 : params N).
  Local Notation o1 := (order_of FO r1).
  Hypothesis Ho1 : 1 <= o1.
  Hypothesis PG : is_shelf (snd k) = true -> exact_param (q_gain q1).
  Hypothesis PD : fst k <> Bw -> exact_param (q_db q1).

  Definition ana_good (p : proto N) : Prop :=
    norm_pre k (init_norm k) p /\
    (ana_miss k o1 q1 p = false -> exists a0 n, ana_design k o1 q1 (fresh_ana k FO) = Ok a0 tt /\ LR (Some n) (p_lay p) (p_lay a0)).
  Lemma fresh_good : ana_good (fresh_ana k FO).
  Proof. split; [apply fresh_norm|]. rewrite fresh_miss by exact Ho1. discriminate. Qed.
  Lemma other_miss r q p : key k (order_of FO r) q p -> other_proto k FO r q r1 q1 -> ana_miss k o1 q1 p = true.
  Proof.
    intros (K1 & K2 & K3) O. unfold ana_miss. apply orb_true_iff. destruct (Z.eqb_spec (p_np p) o1) as [E|NE]; [right|left; reflexivity].
    destruct O as [O|[[S O]|[F O]]]; [elim O; rewrite <- E, K1; reflexivity| |].
    - specialize (K2 S). rewrite S. unfold nneqb. rewrite K2, O. destruct (fst k); rewrite ?orb_true_r; reflexivity.
    - specialize (K3 F). unfold nneqb. rewrite K3, O. destruct (fst k), (is_shelf (snd k)); try reflexivity; elim F; reflexivity.
  Qed.
  (** a design leaves a good prototype *)
  Lemma ana_good_step r q p : LL (p_lay p) (p_lay (fresh_ana k FO)) -> ana_good p ->
    match ana_design k (order_of FO r) q p with
    | Ok p' _ => ana_good p'
    | Throw _ p' => other_proto k FO r q r1 q1 -> ana_good p'
    | UB => True
    end.
  Proof.
    intros H1 (H2 & H3). rewrite ana_design_split. set (o := order_of FO r). destruct (ana_miss k o q p); [|split; assumption].
    pose proof (rel_body k o q (init_norm k) p (fresh_ana k FO) (conj H1 (conj H2 (fresh_norm k FO)))) as Q.
    pose proof (body_key k o q p) as K. pose proof (body_keeps k o q (init_norm k) p H2) as KN.
    destruct (ana_body k o q p) as [p' []|e p'|] eqn:E; [| |exact I].
    - destruct (ana_body k o q (fresh_ana k FO)) as [a0 []|e a0|] eqn:EB; try contradiction. destruct Q as [Q _]. split; [exact KN|].
      intros MI. destruct (hit_key k o1 q1 p' PG PD MI) as (K1' & KG' & KD'). destruct K as (K1 & KG & KD).
      assert (EO : o1 = o) by congruence.
      exists a0, (body_norm k o q (init_norm k)). split; [|exact Q]. rewrite ana_design_split, fresh_miss by exact Ho1. rewrite EO.
      rewrite (body_cong k o q1 q); [exact EB| |]; intros Z; [rewrite <- KG', KG|rewrite <- KD', KD]; auto.
    - intros O. split; [exact KN|]. rewrite (other_miss r q p' K O). discriminate.
  Qed.
  (** and designs what a new prototype would *)
  Lemma ana_good_design p : LL (p_lay p) (p_lay (fresh_ana k FO)) -> ana_good p ->
    match ana_design k o1 q1 p, ana_design k o1 q1 (fresh_ana k FO) with
    | Ok a _, Ok b _ => exists n, LR (Some n) (p_lay a) (p_lay b)
    | Throw e _, Throw e' _ => e = e'
    | UB, UB => True
    | _, _ => False
    end.
  Proof.
    intros H1 (H2 & H3). rewrite ana_design_split. destruct (ana_miss k o1 q1 p) eqn:MI.
    - rewrite (ana_design_split k o1 q1 (fresh_ana k FO)), fresh_miss by exact Ho1.
      pose proof (rel_body k o1 q1 (init_norm k) p (fresh_ana k FO) (conj H1 (conj H2 (fresh_norm k FO)))) as Q.
      destruct (ana_body k o1 q1 p), (ana_body k o1 q1 (fresh_ana k FO)); auto. destruct Q as [Q _]. eexists. exact Q.
    - destruct (H3 eq_refl) as (a0 & n & -> & Q). exists n. exact Q.
  Qed.

  Definition pf_good (p : pf N) : Prop := pf_ok k FO p /\ ana_good (pf_ana p).
  Lemma ok_LL cap (l1 l2 : layout N) : lay_ok cap l1 -> lay_ok cap l2 -> LL l1 l2.
  Proof. intros (n & _ & _ & A) (n' & _ & _ & B). unfold LL. lia. Qed.

  Lemma base_good r q p (res := base_setup k (order_of FO r) q p) : 1 <= FO -> pf_good p ->
    match threw res with Some e => design_error e = true -> other_proto k FO r q r1 q1 | None => True end ->
    match after res with Some p' => ana_good (pf_ana p') | None => True end.
  Proof.
    intros HF [HO HG] HT. pose proof (pf_init_ok (N := N) k FO HF) as HI.
    assert (L : LL (p_lay (pf_ana p)) (p_lay (fresh_ana k FO))) by (eapply ok_LL; [apply HO|apply HI]).
    pose proof (ana_good_step r q (pf_ana p) L HG) as ST. subst res. unfold base_setup, bind, get, on_ana, on_dig, on_cas, zoom in *.
    destruct (ana_design k (order_of FO r) q (pf_ana p)) as [a []|e a|] eqn:ED.
    - cbn [pf_ana pf_dig pf_cas] in *.
      destruct (dig_transform _ _ _ _) as [dd []|e dd|]; cbn [after pf_ana pf_dig pf_cas]; auto. destruct (setLayout dd (pf_cas p)) as [c []|e c|]; cbn [after pf_ana]; auto.
    - cbn [threw after pf_ana] in *. apply ST, HT. pose proof (body_only k (order_of FO r) q (pf_ana p)) as BO. rewrite ana_design_split in ED.
      destruct (ana_miss k _ q (pf_ana p)); [|discriminate]. rewrite ED in BO. exact BO.
    - exact I.
  Qed.
  Lemma base_same p : 1 <= FO -> pf_good p ->
    match base_setup k o1 q1 p, base_setup k o1 q1 (pf_init k FO) with
    | Ok a _, Ok b _ => pf_cas a = pf_cas b /\ exists n, LR (Some n) (pf_dig a) (pf_dig b)
    | Throw e _, Throw e' _ => e = e'
    | UB, UB => True
    | _, _ => False
    end.
  Proof.
    intros HF [HO HG]. pose proof (pf_init_ok (N := N) k FO HF) as HI.
    assert (L : LL (p_lay (pf_ana p)) (p_lay (fresh_ana k FO))) by (eapply ok_LL; [apply HO|apply HI]).
    pose proof (ana_good_design (pf_ana p) L HG) as DS. unfold base_setup, bind, get, on_ana, on_dig, on_cas, zoom.
    change (pf_ana (pf_init k FO)) with (fresh_ana k FO). destruct (ana_design k o1 q1 (pf_ana p)) as [a []|e a|], (ana_design k o1 q1 (fresh_ana k FO)) as [b []|e' b|]; auto; try contradiction.
    destruct DS as [n DS]. cbn [pf_ana pf_dig pf_cas].
    assert (LD : LL (pf_dig p) (pf_dig (pf_init k FO))) by (eapply ok_LL; [apply HO|apply HI]).
    pose proof (rel_dig (snd k) q1 n (p_lay a) (p_lay b) DS _ _ LD) as RD.
    destruct (dig_transform (snd k) q1 (p_lay a) (pf_dig p)) as [da []|e da|], (dig_transform (snd k) q1 (p_lay b) (pf_dig (pf_init k FO))) as [db []|e' db|]; auto; try contradiction.
    destruct RD as [[n' RD] _]. cbn [pf_ana pf_dig pf_cas].
    assert (LC : CL (maxStagesOf (snd k) FO) (pf_cas p) (pf_cas (pf_init k FO))).
    { destruct HO as ((A1 & A2 & _) & _). destruct HI as ((B1 & B2 & _) & _). repeat split; assumption. }
    pose proof (rel_setLayout _ n' da db RD _ _ LC) as RS.
    destruct (setLayout da (pf_cas p)) as [ca []|e ca|], (setLayout db (pf_cas (pf_init k FO))) as [cb []|e' cb|]; auto; try contradiction.
    destruct RS as [-> _]. cbn [pf_cas pf_dig]. split; [reflexivity|]. exists n'. exact RD.
  Qed.

  (** ** histories *)
  Hypothesis polar_total : forall r th, npolar N r th <> None.
  Definition fgood t (f : filt N) : Prop := filt_ok t k FO f /\ ana_good (pf_ana (fl_pf f)).
  Lemma setup_good t r q f : 1 <= FO -> fgood t f ->
    match threw (filt_setupN k FO r q f) with Some e => design_error e = true -> other_proto k FO r q r1 q1 | None => True end ->
    match after (filt_setupN k FO r q f) with Some f' => ana_good (pf_ana (fl_pf f')) | None => True end.
  Proof.
    intros HF [HO HG] HT. unfold filt_setupN, on_pf, zoom in *. unfold setupN in *.
    pose proof (base_good r q (fl_pf f) HF (conj (proj1 HO) HG)) as B. cbv zeta in B.
    destruct r as [o|]; cbn [order_of] in B.
    - destruct (FO <? o); [exact HG|]. unfold throw_if, bind, ret in *. destruct (base_setup k o q (fl_pf f)); cbn in *; auto.
    - destruct (base_setup k FO q (fl_pf f)); cbn in *; auto.
  Qed.
  Lemma setup_is_setupN r sr q f : filt_setup (N := N) k FO r sr q f = filt_setupN k FO r (norm_params (snd k) sr q) f.
  Proof. reflexivity. Qed.
  Lemma steps_good t os : forall f f', 1 <= FO -> in_int (2 * FO) = true -> Forall op_ok os -> fgood t f -> calm k FO r1 q1 os f ->
    steps k FO os f = Some f' -> fgood t f'.
  Proof.
    induction os as [|o os IH]; intros f f' HF HI HOs HG HC E.
    - injection E as <-. exact HG.
    - inversion HOs as [|? ? Ho HOs']; subst. cbn [steps calm] in *. destruct HC as [HT HC].
      destruct (step_ok polar_total t k FO o f HF HI Ho (proj1 HG)) as (f1 & E1 & O1). rewrite E1 in *.
      apply (IH f1 f'); auto. split; [exact O1|]. destruct o as [r q|r sr q|x| |g]; cbn [step op_threw op_other_proto] in *.
      + pose proof (setup_good t r q f HF HG HT) as Q. rewrite E1 in Q. exact Q.
      + rewrite setup_is_setupN in *. pose proof (setup_good t r (norm_params (snd k) sr q) f HF HG) as Q. rewrite E1 in Q. apply Q.
        destruct (threw _); [|exact I]. intros DE. specialize (HT DE). exact HT.
      + injection E1 as <-. unfold filt_filter. destruct (cs_filter (fl_cs f) x). apply HG.
      + injection E1 as <-. apply HG.
      + injection E1 as <-. apply HG.
  Qed.
  Lemma getpairs_eq o (d1 d2 : layout N) is : LR o d1 d2 -> getpairs d1 is = getpairs d2 is.
  Proof. intros H. induction is as [|i is IH]; [reflexivity|]. cbn [getpairs]. rewrite (getPair_eq _ _ _ i H), IH. reflexivity. Qed.
  Lemma setup_same t t' os f : 1 <= FO -> in_int (2 * FO) = true -> Forall op_ok os -> order_ok r1 ->
    steps k FO os (filt_init t k FO) = Some f -> calm k FO r1 q1 os (filt_init t k FO) ->
    same_outcome (filt_setupN k FO r1 q1 f) (filt_setupN k FO r1 q1 (filt_init t' k FO)).
  Proof.
    intros HF HI HOs HR E HC.
    assert (G : fgood t f). { eapply steps_good; eauto. split; [apply filt_init_ok, HF|apply fresh_good]. }
    destruct G as [HO HG].
    assert (NU : filt_setupN k FO r1 q1 f <> UB).
    { pose proof (setupN_ok polar_total k FO r1 q1 HF HI HR (fl_pf f) (proj1 HO)) as Q. unfold filt_setupN, on_pf, zoom. destruct (setupN k FO r1 q1 (fl_pf f)); [discriminate..|contradiction]. }
    revert NU. unfold filt_setupN, on_pf, zoom. cbn [filt_init fl_pf].
    pose proof (base_same (fl_pf f) HF (conj (proj1 HO) HG)) as B.
    assert (FIN : forall a b ss ss', pf_cas a = pf_cas b -> (exists n, LR (Some n) (pf_dig a) (pf_dig b)) -> same_design (N := N) (MkFilt (N := N) a ss) (MkFilt b ss')).
    { intros a b ss ss' EC [n HL]. repeat split.
      - unfold fl_stages. cbn [fl_pf]. rewrite EC. reflexivity.
      - unfold filt_numStages. cbn [fl_pf]. rewrite EC. reflexivity.
      - unfold filt_getPoleZeros. cbn [fl_pf]. rewrite (getpairs_eq _ _ _ _ HL). destruct HL as (_ & -> & _). reflexivity.
      - intros x. unfold filt_response. cbn [fl_pf]. rewrite EC. reflexivity. }
    unfold setupN. destruct r1 as [o|]; cbn [order_of] in *.
    - destruct (FO <? o); [reflexivity|]. unfold throw_if, bind, ret.
      destruct (base_setup k o q1 (fl_pf f)) as [a []|e a|], (base_setup k o q1 (pf_init k FO)) as [b []|e' b|]; try contradiction; try (intros Q; exact B || (elim Q; reflexivity)); intros _; destruct B; apply FIN; auto.
    - destruct (base_setup k FO q1 (fl_pf f)) as [a []|e a|], (base_setup k FO q1 (pf_init k FO)) as [b []|e' b|]; try contradiction; try (intros Q; exact B || (elim Q; reflexivity)); intros _; destruct B; apply FIN; auto.
  Qed.
  End For.
End Rel.
