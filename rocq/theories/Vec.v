(** [Vec] methods on lists. An index out of range is a [Panic]. *)
From Coq Require Import List Lia PeanoNat Bool.
From Verif Require Import Base.
Import ListNotations.

Section Vec.
  Context {A : Type}.

  Definition is_nil (l : list A) : bool := match l with [] => true | _ => false end.

  (** [Vec::last]; [last_mut] with the write done by [set_last]. *)
  Definition last_opt (l : list A) : option A := nth_error l (length l - 1).

  (** [v[i] = x] for an index in range. *)
  Definition set_at (i : nat) (x : A) (l : list A) : list A :=
    match skipn i l with [] => l | _ :: r => firstn i l ++ x :: r end.

  (** [Vec::insert]: panics if [i > len]. *)
  Definition vec_insert (i : nat) (x : A) (l : list A) : res (list A) :=
    if i <=? length l then Ok (firstn i l ++ x :: skipn i l) else Panic.

  (** [Vec::remove]: panics if [i >= len]. *)
  Definition vec_remove (i : nat) (l : list A) : res (A * list A) :=
    match skipn i l with [] => Panic | x :: r => Ok (x, firstn i l ++ r) end.

  (** [Vec::pop]. *)
  Definition vec_pop (l : list A) : option (A * list A) :=
    match rev l with [] => None | x :: r => Some (x, rev r) end.

  (** [Vec::split_off]: panics if [i > len]. *)
  Definition vec_split_off (i : nat) (l : list A) : res (list A * list A) :=
    if i <=? length l then Ok (firstn i l, skipn i l) else Panic.

  (** [&v[i..j]]: panics if [i > j] or [j > len]. *)
  Definition slice (i j : nat) (l : list A) : res (list A) :=
    if (i <=? j) && (j <=? length l) then Ok (firstn (j - i) (skipn i l)) else Panic.
  (** [v.get(i..j).unwrap_or_default()]. *)
  Definition slice_or_default (i j : nat) (l : list A) : list A :=
    match slice i j l with Ok r => r | Panic => [] end.

  (** ** Facts *)
  Lemma set_at_mid l1 (x y : A) l2 i : i = length l1 -> set_at i y (l1 ++ x :: l2) = l1 ++ y :: l2.
  Proof.
    intros ->. unfold set_at. rewrite skipn_app, skipn_all, Nat.sub_diag. cbn.
    now rewrite firstn_app, firstn_all, Nat.sub_diag, app_nil_r.
  Qed.
  Lemma set_at_length i (x : A) l : length (set_at i x l) = length l.
  Proof.
    unfold set_at. destruct (skipn i l) as [|y r] eqn:E; auto.
    rewrite <- (firstn_skipn i l) at 2. rewrite E, !app_length. reflexivity.
  Qed.
  Lemma vec_insert_mid l1 (x : A) l2 i : i = length l1 -> vec_insert i x (l1 ++ l2) = Ok (l1 ++ x :: l2).
  Proof.
    intros ->. unfold vec_insert. rewrite app_length.
    destruct (Nat.leb_spec (length l1) (length l1 + length l2)); [|lia].
    now rewrite firstn_app, firstn_all, skipn_app, skipn_all, Nat.sub_diag, app_nil_r.
  Qed.
  Lemma vec_remove_mid l1 (x : A) l2 i : i = length l1 -> vec_remove i (l1 ++ x :: l2) = Ok (x, l1 ++ l2).
  Proof.
    intros ->. unfold vec_remove. rewrite skipn_app, skipn_all, Nat.sub_diag. cbn.
    now rewrite firstn_app, firstn_all, Nat.sub_diag, app_nil_r.
  Qed.
  Lemma vec_pop_snoc l (x : A) : vec_pop (l ++ [x]) = Some (x, l).
  Proof. unfold vec_pop. rewrite rev_app_distr. cbn. now rewrite rev_involutive. Qed.
  Lemma vec_split_off_mid l1 (l2 : list A) i : i = length l1 -> vec_split_off i (l1 ++ l2) = Ok (l1, l2).
  Proof.
    intros ->. unfold vec_split_off. rewrite app_length.
    destruct (Nat.leb_spec (length l1) (length l1 + length l2)); [|lia].
    now rewrite firstn_app, firstn_all, skipn_app, skipn_all, Nat.sub_diag, app_nil_r.
  Qed.
  Lemma nth_mid l1 (x : A) l2 i : i = length l1 -> nth_error (l1 ++ x :: l2) i = Some x.
  Proof. intros ->. rewrite nth_error_app2, Nat.sub_diag; auto. Qed.
  Lemma last_snoc l (x : A) : last_opt (l ++ [x]) = Some x.
  Proof. unfold last_opt. apply nth_mid. rewrite app_length. cbn. lia. Qed.
  Lemma last_nil : last_opt (@nil A) = None.
  Proof. reflexivity. Qed.
  Lemma nth_nil i : nth_error (@nil A) i = None.
  Proof. now destruct i. Qed.
  Lemma snoc_cases (l : list A) : l = [] \/ exists l' x, l = l' ++ [x].
  Proof.
    destruct (rev l) as [|x r] eqn:E.
    - left. rewrite <- (rev_involutive l), E. reflexivity.
    - right. exists (rev r), x. rewrite <- (rev_involutive l), E. reflexivity.
  Qed.
  (** Cutting a list at a position. *)
  Lemma cut_at i (l : list A) : i <= length l -> exists l1 l2, l = l1 ++ l2 /\ length l1 = i.
  Proof.
    intros H. exists (firstn i l), (skipn i l). split; [now rewrite firstn_skipn|].
    now apply firstn_length_le.
  Qed.
  Lemma cut_mid i (l : list A) : i < length l ->
    exists l1 x l2, l = l1 ++ x :: l2 /\ length l1 = i.
  Proof.
    intros H. destruct (cut_at i l) as (l1 & l2 & -> & Hl); [lia|].
    rewrite app_length in H. destruct l2 as [|x l2]; [cbn in H; lia|]. eauto.
  Qed.
  Lemma slice_mid l1 (l2 l3 : list A) i j : i = length l1 -> j = length l1 + length l2 ->
    slice i j (l1 ++ l2 ++ l3) = Ok l2.
  Proof.
    intros -> ->. unfold slice. rewrite !app_length.
    destruct (Nat.leb_spec (length l1) (length l1 + length l2)); [|lia].
    destruct (Nat.leb_spec (length l1 + length l2) (length l1 + (length l2 + length l3))); [|lia].
    cbn. rewrite skipn_app, skipn_all, Nat.sub_diag. cbn.
    replace (length l1 + length l2 - length l1) with (length l2) by lia.
    now rewrite firstn_app, firstn_all, Nat.sub_diag, app_nil_r.
  Qed.
  Lemma slice_one l1 (x : A) l2 i j : i = length l1 -> j = length l1 + 1 -> slice i j (l1 ++ x :: l2) = Ok [x].
  Proof. intros -> ->. exact (slice_mid l1 [x] l2 _ _ eq_refl eq_refl). Qed.
End Vec.
