From Coq Require Import List PeanoNat Lia.
From Verif Require Import Base Ask AskSpec.
Import ListNotations.

Section AskProofs.
  Context {Q : Type} (cmp : Q -> Q -> comparison) (ask : nat -> Q -> Q -> option comparison).

  Lemma tries_plain {S R} n0 most (s0 : S) (m : res (S * R)) n : n0 <= n <= n0 + most -> tries ask n0 most s0 m (plain m n).
  Proof. intros H. destruct m as [[s r]|]; cbn; auto. Qed.
  Lemma tries_ret {S R} n0 most (s0 : S) s (r : R) n : n0 <= n <= n0 + most -> tries ask n0 most s0 (Ok (s, r)) (Returned s r n).
  Proof. intros H. cbn; auto. Qed.
  Lemma tries_after {S R S' R'} n0 m1 most (s0 : S) (s0' : S') (m : res (S * R)) (m' : res (S' * R')) t back f :
    tries ask n0 m1 s0 m t -> m1 <= most -> back s0 = s0' -> (m = Panic -> m' = Panic) ->
    (forall s r n, n0 <= n <= n0 + m1 -> m = Ok (s, r) -> tries ask n (n0 + most - n) s0' m' (f s r n)) ->
    tries ask n0 most s0' m' (after t back f).
  Proof.
    intros H L B P F. destruct t as [s r n|s n|]; cbn [tries after] in *.
    - destruct H as [Hn E]. specialize (F s r n Hn E). destruct (f s r n) as [s1 r1 n1|s1 n1|]; cbn [tries] in *; auto.
      + destruct F as [F1 F2]. split; auto. lia.
      + destruct F as [F1 F2]. split; auto. lia.
    - destruct H as (Hn & Hp & ->). repeat split; auto; lia.
    - auto.
  Qed.
  Lemma tries_question {S R} n0 most (s0 : S) (m : res (S * R)) a b f : answers cmp ask -> 1 <= most ->
    (tries ask (1 + n0) (most - 1) s0 m (f (cmp a b) (1 + n0))) -> tries ask n0 most s0 m (question ask n0 a b s0 f).
  Proof.
    intros A L H. unfold question. destruct (ask n0 a b) as [c|] eqn:E.
    - rewrite (A _ _ _ _ E). destruct (f (cmp a b) (1 + n0)) as [s r n|s n|]; cbn [tries] in *; auto.
      + destruct H; split; auto; lia.
      + destruct H; split; auto; lia.
    - cbn [tries]. split; [lia|]. split; auto. exists n0, a, b. auto.
  Qed.
  Lemma tries_more {S R} n0 most most' (s0 : S) (m : res (S * R)) t : most <= most' -> tries ask n0 most s0 m t -> tries ask n0 most' s0 m t.
  Proof. intros L. destruct t; cbn; auto; intros (H & X); split; auto; lia. Qed.
  Lemma tries_fares {S R} n0 most (s0 : S) (m : res (S * R)) t (ok : S -> R -> Prop) (un : S -> Prop) : tries ask n0 most s0 m t ->
    (exists s r, m = Ok (s, r) /\ ok s r) -> un s0 -> fares ask n0 most t ok un.
  Proof.
    intros T (s & r & -> & H) U. destruct t as [s1 r1 n|s1 n|]; cbn in *; [| |discriminate].
    - destruct T as [T [= -> ->]]. auto.
    - destruct T as (T1 & T2 & ->). auto.
  Qed.

  (** Without any assumption on the answers: what unwinding leaves. *)
  Definition keeps {S R} (s0 : S) (t : trial S R) : Prop := forall s n, t = Unwound s n -> s = s0 /\ panicked ask n.
  Lemma keeps_plain {S R} (s0 : S) (m : res (S * R)) n : keeps s0 (plain m n).
  Proof. intros s k. destruct m as [[s1 r]|]; discriminate. Qed.
  Lemma keeps_ret {S R} (s0 s : S) (r : R) n : keeps s0 (Returned s r n).
  Proof. discriminate. Qed.
  Lemma keeps_fault {S R} (s0 : S) : @keeps S R s0 Fault.
  Proof. discriminate. Qed.
  Lemma keeps_after {S R S' R'} (s0 : S) (s0' : S') (t : trial S R) (back : S -> S') (f : S -> R -> nat -> trial S' R') :
    keeps s0 t -> back s0 = s0' -> (forall s r n, keeps s0' (f s r n)) -> keeps s0' (after t back f).
  Proof.
    intros H B F. destruct t as [s r n|s n|]; cbn [after].
    - apply F.
    - intros s1 n1 [= <- <-]. destruct (H s n eq_refl) as [-> P]. auto.
    - discriminate.
  Qed.
  Lemma keeps_question {S R} n0 (s0 : S) a b (f : comparison -> nat -> trial S R) :
    (forall c n, keeps s0 (f c n)) -> keeps s0 (question ask n0 a b s0 f).
  Proof.
    intros H. unfold question. destruct (ask n0 a b) as [c|] eqn:E; auto. intros s n [= <- <-]. split; auto. exists n0, a, b. auto.
  Qed.
End AskProofs.
