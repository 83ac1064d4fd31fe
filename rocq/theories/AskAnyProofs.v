From Coq Require Import List PeanoNat Lia Permutation.
From Verif Require Import Base Ask AskSpec AskAnySpec.
Import ListNotations.
Local Open Scope nat_scope.

Section Copes.
  Context {Q : Type} (ask : nat -> Q -> Q -> option comparison).
  Lemma copes_ret {S R} n0 n (s : S) (r : R) (ok : S -> R -> nat -> Prop) (un : S -> Prop) : n0 <= n -> ok s r n -> copes ask n0 (Returned s r n) ok un.
  Proof. cbn. auto. Qed.
  Lemma copes_plain {S R} n0 n (m : res (S * R)) (ok : S -> R -> nat -> Prop) (un : S -> Prop) : n0 <= n -> (exists s r, m = Ok (s, r) /\ ok s r n) -> copes ask n0 (plain m n) ok un.
  Proof. intros L (s & r & -> & H). cbn. auto. Qed.
  Lemma copes_after {S R S' R'} n0 (t : trial S R) (back : S -> S') (f : S -> R -> nat -> trial S' R') (ok1 : S -> R -> nat -> Prop) (un1 : S -> Prop) (ok : S' -> R' -> nat -> Prop) (un : S' -> Prop) :
    copes ask n0 t ok1 un1 -> (forall s, un1 s -> un (back s)) ->
    (forall s r n, n0 <= n -> ok1 s r n -> copes ask n (f s r n) ok un) ->
    copes ask n0 (after t back f) ok un.
  Proof.
    intros H B F. destruct t as [s r n|s n|]; cbn [copes after] in *; auto.
    - destruct H as [L H]. specialize (F s r n L H). destruct (f s r n); cbn [copes] in *; auto.
      + destruct F; split; auto; lia.
      + destruct F; split; auto; lia.
    - destruct H as (L & P & U). auto.
  Qed.
  Lemma copes_question {S R} n0 a b (here : S) (f : comparison -> nat -> trial S R) (ok : S -> R -> nat -> Prop) (un : S -> Prop) :
    un here -> (forall c, ask n0 a b = Some c -> copes ask (1 + n0) (f c (1 + n0)) ok un) -> copes ask n0 (question ask n0 a b here f) ok un.
  Proof.
    intros U F. unfold question. destruct (ask n0 a b) as [c|] eqn:E.
    - specialize (F c eq_refl). destruct (f c (1 + n0)); cbn [copes] in *; auto.
      + destruct F; split; auto; lia.
      + destruct F; split; auto; lia.
    - cbn. split; [lia|]. split; auto. exists n0, a, b. auto.
  Qed.
  Lemma copes_weak {S R} n0 (t : trial S R) (ok : S -> R -> nat -> Prop) (un : S -> Prop) (ok' : S -> R -> nat -> Prop) (un' : S -> Prop) : copes ask n0 t ok un ->
    (forall s r n, n0 <= n -> ok s r n -> ok' s r n) -> (forall s, un s -> un' s) -> copes ask n0 t ok' un'.
  Proof. destruct t; cbn; auto; intros H A B; intuition. Qed.
End Copes.

Section Told.
  Context {K V Q : Type} (bor : K -> Q).
  Notation entry := (K * V)%type.
  Section One.
    Context (told told' : Q -> entry -> Prop) (W : forall q e, told q e -> told' q e).
    Lemma get_mono q l r : may_get told q l r -> may_get told' q l r.
    Proof. destruct r; cbn; auto. intros (e & H1 & H2 & H3). exists e. auto. Qed.
    Lemma get_mut_mono q w l l' r : may_get_mut told q w l l' r -> may_get_mut told' q w l l' r.
    Proof. destruct r; cbn; auto. intros (l1 & e & l2 & H1 & H2 & H3 & H4). exists l1, e, l2. auto. Qed.
    Lemma insert_mono k v l l' r : may_insert bor told k v l l' r -> may_insert bor told' k v l l' r.
    Proof. destruct r; cbn; auto. intros (l1 & e & l2 & H1 & H2 & H3 & H4). exists l1, e, l2. auto. Qed.
    Lemma remove_mono q l l' r : may_remove told q l l' r -> may_remove told' q l l' r.
    Proof. destruct r; cbn; auto. intros (l1 & l2 & H1 & H2 & H3). exists l1, l2. auto. Qed.
    Lemma extend_mono ps : forall l l', may_extend bor told ps l l' -> may_extend bor told' ps l l'.
    Proof.
      induction ps as [|[k v] ps IH]; intros l l'; cbn; auto. intros (l1 & r & H1 & H2). exists l1, r. split; auto. now apply insert_mono.
    Qed.
  End One.
  Context (told : Q -> entry -> Prop).
  Lemma get_mut_seg q w (a b l l' : list entry) r : may_get_mut told q w l l' r -> may_get_mut told q w (a ++ l ++ b) (a ++ l' ++ b) r.
  Proof.
    destruct r; cbn; [|now intros ->]. intros (l1 & e & l2 & -> & -> & H). exists (a ++ l1), e, (l2 ++ b). now rewrite <- !app_assoc.
  Qed.
  Lemma insert_seg k v (a b l l' : list entry) r : may_insert bor told k v l l' r -> may_insert bor told k v (a ++ l ++ b) (a ++ l' ++ b) r.
  Proof.
    destruct r; cbn.
    - intros (l1 & e & l2 & -> & -> & H). exists (a ++ l1), e, (l2 ++ b). now rewrite <- !app_assoc.
    - intros (l1 & l2 & -> & ->). exists (a ++ l1), (l2 ++ b). now rewrite <- !app_assoc.
  Qed.
  Lemma remove_seg q (a b l l' : list entry) r : may_remove told q l l' r -> may_remove told q (a ++ l ++ b) (a ++ l' ++ b) r.
  Proof.
    destruct r; cbn; [|now intros ->]. intros (l1 & l2 & -> & -> & H). exists (a ++ l1), (l2 ++ b). now rewrite <- !app_assoc.
  Qed.
  Lemma len_insert k v (l l' : list entry) r : may_insert bor told k v l l' r -> length l' = (match r with None => 1 | Some _ => 0 end) + length l.
  Proof.
    destruct r; cbn.
    - intros (l1 & e & l2 & -> & -> & _). rewrite !app_length. reflexivity.
    - intros (l1 & l2 & -> & ->). rewrite !app_length. cbn. lia.
  Qed.
  Lemma len_remove q (l l' : list entry) r : may_remove told q l l' r -> length l = (match r with None => 0 | Some _ => 1 end) + length l'.
  Proof.
    destruct r; cbn; [|now intros ->]. intros (l1 & l2 & -> & -> & _). rewrite !app_length. cbn. lia.
  Qed.
  Lemma len_get_mut q w (l l' : list entry) r : may_get_mut told q w l l' r -> length l' = length l.
  Proof. destruct r; cbn; [|now intros ->]. intros (l1 & e & l2 & -> & -> & _). now rewrite !app_length. Qed.
  (** One side changes, the other does not. *)
  Lemma ins_l k v (e : entry) l l' r o : may_insert bor told k v l l' o -> may_insert bor told k v (l ++ e :: r) (l' ++ e :: r) o.
  Proof. exact (insert_seg k v [] (e :: r) l l' o). Qed.
  Lemma ins_r k v (e : entry) l r r' o : may_insert bor told k v r r' o -> may_insert bor told k v (l ++ e :: r) (l ++ e :: r') o.
  Proof.
    intros H. pose proof (insert_seg k v (l ++ [e]) [] r r' o H) as X. rewrite !app_nil_r, <- !app_assoc in X. exact X.
  Qed.
  Lemma rem_l q (e : entry) l l' r o : may_remove told q l l' o -> may_remove told q (l ++ e :: r) (l' ++ e :: r) o.
  Proof. exact (remove_seg q [] (e :: r) l l' o). Qed.
  Lemma rem_r q (e : entry) l r r' o : may_remove told q r r' o -> may_remove told q (l ++ e :: r) (l ++ e :: r') o.
  Proof.
    intros H. pose proof (remove_seg q (l ++ [e]) [] r r' o H) as X. rewrite !app_nil_r, <- !app_assoc in X. exact X.
  Qed.
  Lemma mut_l q w (e : entry) l l' r o : may_get_mut told q w l l' o -> may_get_mut told q w (l ++ e :: r) (l' ++ e :: r) o.
  Proof. exact (get_mut_seg q w [] (e :: r) l l' o). Qed.
  Lemma mut_r q w (e : entry) l r r' o : may_get_mut told q w r r' o -> may_get_mut told q w (l ++ e :: r) (l ++ e :: r') o.
  Proof.
    intros H. pose proof (get_mut_seg q w (l ++ [e]) [] r r' o H) as X. rewrite !app_nil_r, <- !app_assoc in X. exact X.
  Qed.
End Told.

Section Said.
  Context {K V Q : Type} (bor : K -> Q) (ask : nat -> Q -> Q -> option comparison).
  Notation entry := (K * V)%type.
  Lemma said_mono n1 n1' n n' q (e : entry) : n <= n1 -> n1' <= n' -> said bor ask n1 n1' q e -> said bor ask n n' q e.
  Proof. intros L L' (i & I & H). exists i. split; auto. lia. Qed.
  Lemma said_now n n' q (e : entry) : n < n' -> ask n q (bor (fst e)) = Some Eq -> said bor ask n n' q e.
  Proof. intros L H. exists n. split; auto. Qed.
  Lemma said_now' n n' q (e : entry) : n < n' -> ask n (bor (fst e)) q = Some Eq -> said bor ask n n' q e.
  Proof. intros L H. exists n. split; auto. Qed.
End Said.
