(** Hoare-style rules for the state-exception monad. *)
From Coq Require Import ZArith List Bool Lia.
From Verif Require Import Outcome.
Import ListNotations.

(** [m] run from P never is UB, ends in Q when it returns, in E when it throws *)
Definition hoare {S A} (P : S -> Prop) (m : M S A) (Q : A -> S -> Prop) (E : S -> Prop) : Prop :=
  forall s, P s -> match m s with
                   | Ok s' a => Q a s'
                   | Throw _ s' => E s'
                   | UB => False
                   end.

Section Rules.
  Context {S : Type}.

  Lemma h_conseq A (P P' : S -> Prop) (m : M S A) (Q Q' : A -> S -> Prop) (E E' : S -> Prop) :
    hoare P' m Q' E' -> (forall s, P s -> P' s) -> (forall a s, Q' a s -> Q a s) ->
    (forall s, E' s -> E s) -> hoare P m Q E.
  Proof.
    intros H HP HQ HE s Hs. specialize (H s (HP s Hs)).
    destruct (m s); auto.
  Qed.

  Lemma h_bind A B (P : S -> Prop) (m : M S A) (R : A -> S -> Prop) (f : A -> M S B) (Q : B -> S -> Prop) (E : S -> Prop) :
    hoare P m R E -> (forall a, hoare (R a) (f a) Q E) -> hoare P (bind m f) Q E.
  Proof.
    intros H1 H2 s Hs. unfold bind. specialize (H1 s Hs).
    destruct (m s) as [s' a|e s'|]; auto. apply (H2 a s' H1).
  Qed.

  Lemma h_seq A B (P : S -> Prop) (m : M S A) (R : S -> Prop) (k : M S B) (Q : B -> S -> Prop) (E : S -> Prop) :
    hoare P m (fun _ => R) E -> hoare R k Q E -> hoare P (m ;; k) Q E.
  Proof. intros H1 H2. eapply h_bind; [exact H1|]. intros a. exact H2. Qed.

  (** the value of [get] is the current state *)
  Lemma h_get_bind A (P : S -> Prop) (f : S -> M S A) (Q : A -> S -> Prop) (E : S -> Prop) :
    (forall s, P s -> hoare (fun s' => s' = s) (f s) Q E) -> hoare P (bind get f) Q E.
  Proof. intros H s Hs. unfold bind, get. apply (H s Hs s eq_refl). Qed.

  Lemma h_get_any A (P : S -> Prop) (f : S -> M S A) (Q : A -> S -> Prop) (E : S -> Prop) :
    (forall s, hoare P (f s) Q E) -> hoare P (bind get f) Q E.
  Proof. intros H s Hs. unfold bind, get. apply (H s s Hs). Qed.

  Lemma h_lift_bind A B (o : oc A) (P : S -> Prop) (f : A -> M S B) (Q : B -> S -> Prop) (E : S -> Prop) :
    (forall s, P s -> match o with Val a => True | Exc _ => E s | Undef => False end) ->
    (forall a, o = Val a -> hoare P (f a) Q E) -> hoare P (bind (lift o) f) Q E.
  Proof.
    intros H1 H2 s Hs. unfold bind. specialize (H1 s Hs). destruct o; simpl; auto.
    apply (H2 a eq_refl s Hs).
  Qed.

  Lemma h_or_ub_bind A B (o : option A) a (P : S -> Prop) (f : A -> M S B) (Q : B -> S -> Prop) (E : S -> Prop) :
    o = Some a -> hoare P (f a) Q E -> hoare P (bind (or_ub o) f) Q E.
  Proof. intros -> H. exact H. Qed.

  Lemma h_ret A (a : A) (Q : A -> S -> Prop) (E : S -> Prop) : hoare (Q a) (ret a) Q E.
  Proof. intros s Hs. exact Hs. Qed.

  Lemma h_throw A (e : err) (Q : A -> S -> Prop) (E : S -> Prop) : hoare E (throw e) Q E.
  Proof. intros s Hs. exact Hs. Qed.

  Lemma h_get (P : S -> Prop) (E : S -> Prop) : hoare P get (fun a s => a = s /\ P s) E.
  Proof. intros s Hs. simpl. auto. Qed.

  Lemma h_put (P : S -> Prop) s0 (E : S -> Prop) : P s0 -> hoare (fun _ => True) (put s0) (fun _ => P) E.
  Proof. intros H s _. exact H. Qed.

  Lemma h_modify (f : S -> S) (Q : unit -> S -> Prop) (E : S -> Prop) :
    hoare (fun s => Q tt (f s)) (modify f) Q E.
  Proof. intros s Hs. exact Hs. Qed.

  Lemma h_throw_if (b : bool) e (P : S -> Prop) (Q : unit -> S -> Prop) (E : S -> Prop) :
    (forall s, P s -> b = true -> E s) -> (forall s, P s -> b = false -> Q tt s) ->
    hoare P (throw_if b e) Q E.
  Proof. intros H1 H2 s Hs. destruct b; simpl; auto. Qed.

  Lemma h_pure A (P : S -> Prop) (Pr : Prop) (m : M S A) (Q : A -> S -> Prop) (E : S -> Prop) :
    (Pr -> hoare P m Q E) -> hoare (fun s => Pr /\ P s) m Q E.
  Proof. intros H s [H1 H2]. exact (H H1 s H2). Qed.

  Lemma h_lift A (o : oc A) (P : S -> Prop) (Q : A -> S -> Prop) (E : S -> Prop) :
    (forall s, P s -> match o with Val a => Q a s | Exc _ => E s | Undef => False end) ->
    hoare P (lift o) Q E.
  Proof. intros H s Hs. specialize (H s Hs). destruct o; simpl; auto. Qed.

  Lemma h_or_ub A (o : option A) (P : S -> Prop) (Q : A -> S -> Prop) (E : S -> Prop) :
    (forall s, P s -> match o with Some a => Q a s | None => False end) ->
    hoare P (or_ub o) Q E.
  Proof. intros H s Hs. specialize (H s Hs). destruct o; simpl; auto. Qed.

  Lemma h_mfor_list I (Inv : nat -> S -> Prop) (f : I -> M S unit) (E : S -> Prop) :
    forall (l : list I) (j : nat),
    (forall i x, nth_error l i = Some x -> hoare (Inv (j + i)%nat) (f x) (fun _ => Inv (j + i + 1)%nat) E) ->
    hoare (Inv j) (mfor l f) (fun _ => Inv (j + length l)%nat) E.
  Proof.
    intros l; induction l as [|x l IH]; intros j H; simpl.
    - intros s Hs. simpl. rewrite Nat.add_0_r. exact Hs.
    - eapply h_bind.
      + pose proof (H 0%nat x eq_refl) as H0. rewrite Nat.add_0_r in H0. exact H0.
      + intros u. simpl. replace (j + Datatypes.S (length l))%nat with ((j + 1) + length l)%nat by lia.
        apply IH. intros i y Hy. specialize (H (Datatypes.S i) y Hy).
        replace (j + 1 + i)%nat with (j + Datatypes.S i)%nat by lia. exact H.
  Qed.

  Lemma zrange_length n : length (zrange n) = Z.to_nat n.
  Proof. unfold zrange. rewrite map_length, seq_length. reflexivity. Qed.

  Lemma zrange_nth n i x : nth_error (zrange n) i = Some x -> x = Z.of_nat i /\ (i < Z.to_nat n)%nat.
  Proof.
    unfold zrange. intros H.
    assert (Hi : (i < Z.to_nat n)%nat).
    { assert (Hs : nth_error (map Z.of_nat (seq 0 (Z.to_nat n))) i <> None) by congruence.
      apply nth_error_Some in Hs. rewrite map_length, seq_length in Hs. exact Hs. }
    split; [|exact Hi].
    rewrite nth_error_map in H.
    destruct (nth_error (seq 0 (Z.to_nat n)) i) as [k|] eqn:Hk; simpl in H; [|discriminate].
    apply nth_error_nth with (d := 0%nat) in Hk. rewrite seq_nth in Hk by exact Hi.
    inversion H. subst. rewrite Nat.add_0_l. reflexivity.
  Qed.

  Lemma h_mfor (n : Z) (Inv : Z -> S -> Prop) (f : Z -> M S unit) (E : S -> Prop) :
    (forall i, (0 <= i < n)%Z -> hoare (Inv i) (f i) (fun _ => Inv (i + 1)%Z) E) ->
    hoare (Inv 0%Z) (mfor (zrange n) f) (fun _ => Inv (Z.max 0 n)) E.
  Proof.
    intros H.
    pose proof (h_mfor_list Z (fun j => Inv (Z.of_nat j)) f E (zrange n) 0%nat) as G.
    eapply h_conseq; [apply G| | |]; simpl; auto.
    - intros i x Hx. apply zrange_nth in Hx. destruct Hx as [-> Hi].
      replace (Z.of_nat (i + 1)) with (Z.of_nat i + 1)%Z by lia. apply H. lia.
    - intros _ s Hs. rewrite zrange_length in Hs.
      replace (Z.max 0 n) with (Z.of_nat (Z.to_nat n)) by lia. exact Hs.
  Qed.
End Rules.

Lemma h_zoom S S1 A (g : S -> S1) (p : S1 -> S -> S) (P : S -> Prop) (m : M S1 A) (Q : A -> S -> Prop) (E : S -> Prop) :
  (forall s, P s -> hoare (fun s1 => s1 = g s) m (fun a s1 => Q a (p s1 s)) (fun s1 => E (p s1 s))) ->
  hoare P (zoom g p m) Q E.
Proof.
  intros H s Hs. unfold zoom. specialize (H s Hs (g s) eq_refl). destruct (m (g s)); auto.
Qed.

Lemma upd_length A (l : list A) i x : length (upd l i x) = length l.
Proof. revert i. induction l; intros [|i]; simpl; auto. Qed.

Lemma upd_nth_same A (l : list A) i x d : (i < length l)%nat -> nth i (upd l i x) d = x.
Proof. revert i. induction l; intros [|i]; simpl; intros; try lia; auto. apply IHl. lia. Qed.

Lemma upd_nth_other A (l : list A) i j x d : i <> j -> nth j (upd l i x) d = nth j l d.
Proof. revert i j. induction l; intros [|i] [|j]; simpl; intros; auto; try lia. Qed.

Lemma upd_nth_error_same A (l : list A) i x : (i < length l)%nat -> nth_error (upd l i x) i = Some x.
Proof. revert i. induction l; intros [|i]; simpl; intros; try lia; auto. apply IHl. lia. Qed.

Lemma upd_nth_error_other A (l : list A) i j x : i <> j -> nth_error (upd l i x) j = nth_error l j.
Proof. revert i j. induction l; intros [|i] [|j]; simpl; intros; auto; try lia. Qed.

Lemma aget_some A (l : list A) i : (0 <= i < Z.of_nat (length l))%Z -> exists x, aget l i = Some x.
Proof.
  intros H. unfold aget. destruct (Z.ltb_spec i 0); [lia|].
  destruct (nth_error l (Z.to_nat i)) eqn:E; [eauto|].
  apply nth_error_None in E. lia.
Qed.

Lemma aget_nth A (l : list A) i d : (0 <= i < Z.of_nat (length l))%Z ->
  aget l i = Some (nth (Z.to_nat i) l d).
Proof.
  intros H. unfold aget. destruct (Z.ltb_spec i 0); [lia|]. apply nth_error_nth'. lia.
Qed.

Lemma aset_some A (l : list A) i x : (0 <= i < Z.of_nat (length l))%Z ->
  aset l i x = Some (upd l (Z.to_nat i) x).
Proof.
  intros H. unfold aset. destruct (Z.ltb_spec i 0); [lia|]. simpl.
  destruct (Z.leb_spec (Z.of_nat (length l)) i); [lia|reflexivity].
Qed.
