(** Proofs: filling a layout pair by pair (any arithmetic). *)
From Coq Require Import ZArith List Bool Lia.
From Verif Require Import Num Outcome Types.
Import ListNotations.
Local Open Scope Z_scope.

Lemma quot_double n : Z.quot (2 * n) 2 = n.
Proof. rewrite Z.mul_comm. apply Z.quot_mul. lia. Qed.
Lemma odd_double n : Z.odd (2 * n) = false.
Proof. rewrite Z.odd_mul. reflexivity. Qed.
Lemma upd_app {A} (l : list A) x y r : upd (l ++ x :: r) (length l) y = l ++ y :: r.
Proof. induction l as [|a l IH]; simpl; [reflexivity|]. rewrite IH. reflexivity. Qed.
Lemma aset_app {A} (l : list A) x y r : aset (l ++ x :: r) (Z.of_nat (length l)) y = Some (l ++ y :: r).
Proof.
  unfold aset. replace (Z.of_nat (length l) <? 0) with false by (symmetry; apply Z.ltb_ge; lia).
  replace (Z.of_nat (length (l ++ x :: r)) <=? Z.of_nat (length l)) with false
    by (symmetry; apply Z.leb_gt; rewrite app_length; simpl; lia).
  cbn [orb]. rewrite Nat2Z.id, upd_app. reflexivity.
Qed.

Lemma skipn_skipn' {A} (n m : nat) (l : list A) : skipn n (skipn m l) = skipn (m + n) l.
Proof. revert l. induction m as [|m IH]; intros l; [reflexivity|]. destruct l; simpl; [destruct n; reflexivity|apply IH]. Qed.

Section Build.
  Context {N : num}.
  Notation Cn := (cpx (T N)).

  (** a layout whose first places hold ps *)
  Definition lay (mp : Z) (ps extra : list (pzpair N)) (w g : T N) : layout N :=
    MkLayout (2 * Z.of_nat (length ps)) mp (ps ++ extra) w g.

  Lemma write_push p mp ps x extra (w g : T N) :
    lay_write p (lay mp ps (x :: extra) w g) = Ok (MkLayout (2 * Z.of_nat (length ps)) mp (ps ++ p :: extra) w g) tt.
  Proof.
    unfold lay_write, bind, get, lay. cbn [l_numPoles l_pairs]. rewrite quot_double, aset_app. reflexivity.
  Qed.
  Lemma pushed mp ps p extra (w g : T N) :
    l_set_numPoles (2 * Z.of_nat (length ps) + 2) (MkLayout (2 * Z.of_nat (length ps)) mp (ps ++ p :: extra) w g) =
    lay mp (ps ++ [p]) extra w g.
  Proof.
    unfold l_set_numPoles, lay. cbn [l_maxPoles l_pairs l_normalW l_normalGain]. rewrite app_length, <- app_assoc. cbn [length app].
    f_equal. lia.
  Qed.
  Lemma addConj_push (pole zero : Cn) mp ps x extra w g : c_is_nan pole = false -> c_is_nan zero = false ->
    lay_addConj pole zero (lay mp ps (x :: extra) w g) =
    Ok (lay mp (ps ++ [pz_pair pole zero (c_conj pole) (c_conj zero)]) extra w g) tt.
  Proof.
    intros H1 H2. unfold lay_addConj. unfold bind at 1, get. rewrite H1, H2.
    change (l_numPoles (lay mp ps (x :: extra) w g)) with (2 * Z.of_nat (length ps)). rewrite odd_double.
    cbn [throw_if]. unfold bind at 1 2 3, ret. unfold bind. rewrite write_push. unfold modify. cbn [l_numPoles].
    rewrite pushed. reflexivity.
  Qed.
  Lemma add2_push (pp zz : cpair N) mp ps x extra w g : cp_isMatchedPair pp = true -> cp_isMatchedPair zz = true ->
    lay_add2 pp zz (lay mp ps (x :: extra) w g) =
    Ok (lay mp (ps ++ [PZ pp zz]) extra w g) tt.
  Proof.
    intros H1 H2. unfold lay_add2. unfold bind at 1, get. rewrite H1, H2.
    change (l_numPoles (lay mp ps (x :: extra) w g)) with (2 * Z.of_nat (length ps)). rewrite odd_double.
    cbn [throw_if negb]. unfold bind at 1 2 3, ret. unfold bind. rewrite write_push. unfold modify. cbn [l_numPoles].
    rewrite pushed. destruct pp, zz. reflexivity.
  Qed.
  Lemma add1_push (pole zero : Cn) mp ps x extra w g p : c_is_nan pole = false -> c_is_nan zero = false ->
    pz_single pole zero = Val p ->
    lay_add1 pole zero (lay mp ps (x :: extra) w g) =
    Ok (MkLayout (2 * Z.of_nat (length ps) + 1) mp (ps ++ p :: extra) w g) tt.
  Proof.
    intros H1 H2 H3. unfold lay_add1. unfold bind at 1, get. rewrite H1, H2, H3.
    change (l_numPoles (lay mp ps (x :: extra) w g)) with (2 * Z.of_nat (length ps)). rewrite odd_double.
    cbn [throw_if lift]. unfold bind at 1 2 3 4, ret. unfold bind. rewrite write_push. reflexivity.
  Qed.

  Lemma mfor_push_from (body : Z -> M (layout N) unit) (f : nat -> list (pzpair N)) mp w g : forall n k ps extra,
    (forall i ps extra, (k <= i < k + n)%nat -> (length (f i) <= length extra)%nat ->
       body (Z.of_nat i) (lay mp ps extra w g) = Ok (lay mp (ps ++ f i) (skipn (length (f i)) extra) w g) tt) ->
    (length (flat_map f (seq k n)) <= length extra)%nat ->
    mfor (map Z.of_nat (seq k n)) body (lay mp ps extra w g) =
    Ok (lay mp (ps ++ flat_map f (seq k n)) (skipn (length (flat_map f (seq k n))) extra) w g) tt.
  Proof.
    induction n as [|n IH]; intros k ps extra H L.
    - simpl. rewrite app_nil_r. reflexivity.
    - cbn [seq map mfor flat_map] in *. rewrite app_length in L. unfold bind. rewrite H by lia.
      rewrite IH.
      + rewrite <- app_assoc. rewrite app_length. do 2 f_equal.
        rewrite skipn_skipn'. reflexivity.
      + intros i ps' ex' Hi. apply H. lia.
      + rewrite skipn_length. lia.
  Qed.
  Lemma mfor_push (body : Z -> M (layout N) unit) (f : nat -> list (pzpair N)) mp w g n ps extra :
    (forall i ps extra, (i < n)%nat -> (length (f i) <= length extra)%nat ->
       body (Z.of_nat i) (lay mp ps extra w g) = Ok (lay mp (ps ++ f i) (skipn (length (f i)) extra) w g) tt) ->
    (length (flat_map f (seq 0 n)) <= length extra)%nat ->
    mfor (zrange (Z.of_nat n)) body (lay mp ps extra w g) =
    Ok (lay mp (ps ++ flat_map f (seq 0 n)) (skipn (length (flat_map f (seq 0 n))) extra) w g) tt.
  Proof.
    intros H L. unfold zrange. rewrite Nat2Z.id. apply mfor_push_from; [|exact L]. intros i ps' ex' Hi. apply H. lia.
  Qed.

  Lemma getPair_nth np mp (ps : list (pzpair N)) w g i p : (0 <= i)%nat -> Z.of_nat i < Z.quot (np + 1) 2 ->
    nth_error ps i = Some p -> lay_getPair (MkLayout np mp ps w g) (Z.of_nat i) = Val p.
  Proof.
    intros _ H E. unfold lay_getPair. cbn [l_numPoles l_pairs].
    replace (Z.of_nat i <? 0) with false by (symmetry; apply Z.ltb_ge; lia).
    replace (Z.quot (np + 1) 2 <=? Z.of_nat i) with false by (symmetry; apply Z.leb_gt; lia).
    cbn [orb othrow_if obind]. unfold aget. replace (Z.of_nat i <? 0) with false by (symmetry; apply Z.ltb_ge; lia).
    rewrite Nat2Z.id, E. reflexivity.
  Qed.
End Build.
