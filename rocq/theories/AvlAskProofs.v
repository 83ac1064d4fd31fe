(** AVL maps with comparisons that may panic. *)
From Coq Require Import List ZArith Bool Lia.
From Verif Require Import Base Spec AvlModel AvlShows AvlHistModel Ask AskSpec AskProofs AvlAskModel.
Import ListNotations.
Local Open Scope nat_scope.

Section AvlAsk.
  Context {K V Q : Type} (bor : K -> Q) (cmp : Q -> Q -> comparison) (ask : nat -> Q -> Q -> option comparison).
  Notation tree := (tree K V).
  Notation amap := (avl_map K V).
  Notation entry := (K * V)%type.

  (** ** What unwinding leaves, for any answers *)
  Ltac kq := apply keeps_question; intros [| |] ?.
  Lemma ins_keeps (t : tree) k v : forall n, keeps ask t (ins_t bor ask t k v n).
  Proof.
    induction t as [|nk nv lh rh l IHl r IHr]; intros n; cbn [ins_t]; [apply keeps_plain|]. kq; [discriminate| |].
    - eapply keeps_after; [apply IHl|reflexivity|]. intros ? [? ?] ?. apply keeps_plain.
    - eapply keeps_after; [apply IHr|reflexivity|]. intros ? [? ?] ?. apply keeps_plain.
  Qed.
  Lemma rm_keeps (t : tree) q : forall n, keeps ask t (rm_t bor ask t q n).
  Proof.
    induction t as [|nk nv lh rh l IHl r IHr]; intros n; cbn [rm_t]; [discriminate|]. kq; [apply keeps_plain| |].
    - eapply keeps_after; [apply IHl|reflexivity|]. intros ? [? ?] ?. apply keeps_plain.
    - eapply keeps_after; [apply IHr|reflexivity|]. intros ? [? ?] ?. apply keeps_plain.
  Qed.
  Lemma get_mut_keeps (t : tree) q w : forall n, keeps ask t (t_get_mut_t bor ask t q w n).
  Proof.
    induction t as [|nk nv lh rh l IHl r IHr]; intros n; cbn [t_get_mut_t]; [discriminate|]. kq; [discriminate| |].
    - eapply keeps_after; [apply IHl|reflexivity|]. discriminate.
    - eapply keeps_after; [apply IHr|reflexivity|]. discriminate.
  Qed.
  Lemma get_keeps (t : tree) q : forall n, keeps ask tt (t_get_t bor ask t q n).
  Proof. induction t as [|nk nv lh rh l IHl r IHr]; intros n; cbn [t_get_t]; [discriminate|]. kq; auto. discriminate. Qed.
  Lemma map_eta (m : amap) : AvlMap (am_len m) (am_root m) = m.
  Proof. now destruct m. Qed.
  Lemma a_insert_keeps (m : amap) k v n : keeps ask m (a_insert_t bor ask m k v n).
  Proof. eapply keeps_after; [apply ins_keeps|apply map_eta|]. intros ? [? ?] ?. discriminate. Qed.
  Lemma a_remove_entry_keeps (m : amap) q n : keeps ask m (a_remove_entry_t bor ask m q n).
  Proof. eapply keeps_after; [apply rm_keeps|apply map_eta|]. intros ? [[e|] ?] ?; [apply keeps_plain|discriminate]. Qed.
  Lemma a_remove_keeps (m : amap) q n : keeps ask m (a_remove_t bor ask m q n).
  Proof. eapply keeps_after; [apply a_remove_entry_keeps|reflexivity|]. discriminate. Qed.
  Lemma a_get_mut_keeps (m : amap) q w n : keeps ask m (a_get_mut_t bor ask m q w n).
  Proof. eapply keeps_after; [apply get_mut_keeps|apply map_eta|]. discriminate. Qed.

  (** ** The questions are answered as [cmp] would: up to panics these are the functions of [AvlModel] *)
  Context (A : answers cmp ask).
  Definition sw {X Y Z} (m : res (X * Y * Z)) : res (X * (Y * Z)) := '(x, y, z) <- m;; Ok (x, (y, z)).

  Ltac qu := apply (tries_question cmp); [exact A|cbn [depth]; lia|].
  Lemma ins_tries (t : tree) k v : forall n, tries ask n (depth t) t (sw (ins bor cmp t k v)) (ins_t bor ask t k v n).
  Proof.
    induction t as [|nk nv lh rh l IHl r IHr]; intros n; cbn [ins ins_t].
    - apply tries_ret. lia.
    - qu. destruct (cmp (bor k) (bor nk)).
      + apply tries_ret. cbn [depth]. lia.
      + eapply tries_after; [apply IHl|cbn [depth]; lia|reflexivity| |].
        * intros E. destruct (ins bor cmp l k v) as [[[? ?] ?]|]; [discriminate|reflexivity].
        * intros l' [old taller] n1 Hn E. destruct (ins bor cmp l k v) as [[[? ?] ?]|]; [|discriminate]. cbn in E. injection E as -> -> ->. cbn [bind].
          match goal with |- tries _ _ _ _ ?a (plain ?b _) => replace a with b; [apply tries_plain; cbn [depth] in *; lia|] end.
          destruct (i8_add lh (b2z taller)); cbn [bind]; auto. destruct taller; auto. destruct (bal a rh) as [b|]; cbn [bind]; auto.
          destruct (b <? -1)%Z; auto. destruct (rebal_lf_to_rt _) as [[? ?]|]; auto.
      + eapply tries_after; [apply IHr|cbn [depth]; lia|reflexivity| |].
        * intros E. destruct (ins bor cmp r k v) as [[[? ?] ?]|]; [discriminate|reflexivity].
        * intros l' [old taller] n1 Hn E. destruct (ins bor cmp r k v) as [[[? ?] ?]|]; [|discriminate]. cbn in E. injection E as -> -> ->. cbn [bind].
          match goal with |- tries _ _ _ _ ?a (plain ?b _) => replace a with b; [apply tries_plain; cbn [depth] in *; lia|] end.
          destruct (i8_add rh (b2z taller)); cbn [bind]; auto. destruct taller; auto. destruct (bal lh a) as [b|]; cbn [bind]; auto.
          destruct (1 <? b)%Z; auto. destruct (rebal_rt_to_lf _) as [[? ?]|]; auto.
  Qed.
  Lemma rm_tries (t : tree) q : forall n, tries ask n (depth t) t (sw (rm bor cmp t q)) (rm_t bor ask t q n).
  Proof.
    induction t as [|nk nv lh rh l IHl r IHr]; intros n; cbn [rm rm_t].
    - apply tries_ret. lia.
    - qu. destruct (cmp q (bor nk)).
      + match goal with |- tries _ _ _ _ ?a (plain ?b _) => replace a with b; [apply tries_plain; cbn [depth] in *; lia|] end.
        destruct l, r; auto. destruct (rm_leftmost _) as [[[? [[? ?]|]] ?]|]; cbn [bind unwrap sw]; auto. destruct (after_rm_right _ _ _ _ _ _ _) as [[? ?]|]; auto.
      + eapply tries_after; [apply IHl|cbn [depth]; lia|reflexivity| |].
        * intros E. destruct (rm bor cmp l q) as [[[? ?] ?]|]; [discriminate|reflexivity].
        * intros l' [kv sh] n1 Hn E. destruct (rm bor cmp l q) as [[[? ?] ?]|]; [|discriminate]. cbn in E. injection E as -> -> ->. cbn [bind].
          match goal with |- tries _ _ _ _ ?a (plain ?b _) => replace a with b; [apply tries_plain; cbn [depth] in *; lia|] end.
          destruct (after_rm_left _ _ _ _ _ _ _) as [[? ?]|]; auto.
      + eapply tries_after; [apply IHr|cbn [depth]; lia|reflexivity| |].
        * intros E. destruct (rm bor cmp r q) as [[[? ?] ?]|]; [discriminate|reflexivity].
        * intros l' [kv sh] n1 Hn E. destruct (rm bor cmp r q) as [[[? ?] ?]|]; [|discriminate]. cbn in E. injection E as -> -> ->. cbn [bind].
          match goal with |- tries _ _ _ _ ?a (plain ?b _) => replace a with b; [apply tries_plain; cbn [depth] in *; lia|] end.
          destruct (after_rm_right _ _ _ _ _ _ _) as [[? ?]|]; auto.
  Qed.
  Lemma get_tries (t : tree) q : forall n, tries ask n (depth t) tt (Ok (tt, t_get bor cmp t q)) (t_get_t bor ask t q n).
  Proof.
    induction t as [|nk nv lh rh l IHl r IHr]; intros n; cbn [t_get t_get_t].
    - apply tries_ret. lia.
    - qu. destruct (cmp q (bor nk)).
      + apply tries_ret. lia.
      + eapply tries_more; [|apply IHl]. cbn [depth]. lia.
      + eapply tries_more; [|apply IHr]. cbn [depth]. lia.
  Qed.
  Lemma get_mut_tries (t : tree) q w : forall n, tries ask n (depth t) t (Ok (t_get_mut bor cmp t q w)) (t_get_mut_t bor ask t q w n).
  Proof.
    induction t as [|nk nv lh rh l IHl r IHr]; intros n; cbn [t_get_mut t_get_mut_t].
    - apply tries_ret. lia.
    - qu. destruct (cmp q (bor nk)).
      + apply tries_ret. lia.
      + eapply tries_after; [apply IHl|cbn [depth]; lia|reflexivity|discriminate|]. intros l' o n1 Hn [= ->]. apply tries_ret. cbn [depth]. lia.
      + eapply tries_after; [apply IHr|cbn [depth]; lia|reflexivity|discriminate|]. intros l' o n1 Hn [= ->]. apply tries_ret. cbn [depth]. lia.
  Qed.

  Lemma a_insert_tries (m : amap) k v n : tries ask n (depth (am_root m)) m (avl_insert bor cmp m k v) (a_insert_t bor ask m k v n).
  Proof.
    unfold avl_insert, a_insert_t. eapply tries_after; [apply ins_tries|lia|apply map_eta| |].
    - intros E. destruct (ins _ _ _ _ _) as [[[? ?] ?]|]; [discriminate|reflexivity].
    - intros t [ret b] n1 Hn E. destruct (ins _ _ _ _ _) as [[[? ?] ?]|]; [|discriminate]. cbn in E. injection E as -> -> ->. apply tries_ret. lia.
  Qed.
  Lemma a_remove_entry_tries (m : amap) q n : tries ask n (depth (am_root m)) m (avl_remove_entry bor cmp m q) (a_remove_entry_t bor ask m q n).
  Proof.
    unfold avl_remove_entry, a_remove_entry_t. eapply tries_after; [apply rm_tries|lia|apply map_eta| |].
    - intros E. destruct (rm _ _ _ _) as [[[? ?] ?]|]; [discriminate|reflexivity].
    - intros t [kv b] n1 Hn E. destruct (rm _ _ _ _) as [[[? ?] ?]|]; [|discriminate]. cbn in E. injection E as -> -> ->. cbn [bind].
      destruct kv; [apply tries_plain; lia|apply tries_ret; lia].
  Qed.
  Lemma a_remove_tries (m : amap) q n : tries ask n (depth (am_root m)) m (avl_remove bor cmp m q) (a_remove_t bor ask m q n).
  Proof.
    unfold avl_remove, a_remove_t. eapply tries_after; [apply a_remove_entry_tries|lia|reflexivity| |].
    - now intros ->.
    - intros m' o n1 Hn ->. cbn [bind]. apply tries_ret. lia.
  Qed.
  Lemma a_get_tries (m : amap) q n : tries ask n (depth (am_root m)) tt (Ok (tt, avl_get bor cmp m q)) (a_get_t bor ask m q n).
  Proof.
    unfold a_get_t. eapply tries_after; [apply get_tries|lia|reflexivity|discriminate|]. intros [] o n1 Hn [= <-]. apply tries_ret. lia.
  Qed.
  Lemma a_contains_tries (m : amap) q n : tries ask n (depth (am_root m)) tt (Ok (tt, avl_contains_key bor cmp m q)) (a_contains_t bor ask m q n).
  Proof.
    unfold a_contains_t. eapply tries_after; [apply a_get_tries|lia|reflexivity|discriminate|]. intros [] o n1 Hn [= <-]. apply tries_ret. lia.
  Qed.
  Lemma a_get_mut_tries (m : amap) q w n : tries ask n (depth (am_root m)) m (Ok (avl_get_mut bor cmp m q w)) (a_get_mut_t bor ask m q w n).
  Proof.
    unfold a_get_mut_t, avl_get_mut. eapply tries_after; [apply get_mut_tries|lia|apply map_eta|discriminate|]. intros t o n1 Hn [= ->]. apply tries_ret. lia.
  Qed.

  (** ** Calls that own the tree; the number of questions is not bounded here *)
  Definition owns {R} (n : nat) (m : res R) (t : trial unit R) : Prop := exists most, tries ask n most tt (x <- m;; Ok (tt, x)) t.
  Lemma owns_ret {R} n (r : R) n1 : n <= n1 -> owns n (Ok r) (Returned tt r n1).
  Proof. intros H. exists (n1 - n). apply tries_ret. lia. Qed.
  Lemma owns_plain {R} n (m : res R) n1 : n <= n1 -> owns n m (plain (x <- m;; Ok (tt, x)) n1).
  Proof. intros H. exists (n1 - n). apply tries_plain. lia. Qed.
  Lemma owns_after {R R'} n (m : res R) (m' : R -> res R') t f : owns n m t -> (forall s r n1, n <= n1 -> m = Ok r -> owns n1 (m' r) (f s r n1)) ->
    owns n (r <- m;; m' r) (after t (fun _ => tt) f).
  Proof.
    intros [most T] F. destruct t as [[] r n1|[] n1|]; cbn [after].
    - destruct T as [Hn E]. destruct m as [r0|]; [|discriminate]. cbn in E. injection E as ->. destruct (F tt r n1) as [most' T']; auto; [lia|].
      exists (n1 - n + most'). destruct (f tt r n1) as [s1 r1 n2|s1 n2|]; cbn [tries bind] in *; auto.
      + destruct T' as [T1 T2]. split; auto. lia.
      + destruct T' as [T1 T2]. split; auto. lia.
    - exists most. destruct T as (T1 & T2 & _). cbn. auto.
    - exists most. cbn [tries] in *. destruct m; [discriminate|reflexivity].
  Qed.
  Lemma owns_fares {R} n (m : res R) t (ok : R -> Prop) : owns n m t -> (exists r, m = Ok r /\ ok r) -> exists most, fares ask n most t (fun _ => ok) (fun _ => True).
  Proof.
    intros [most T] (r & -> & H). exists most. eapply tries_fares; [exact T| |exact Logic.I]. exists tt, r. auto.
  Qed.

  Lemma split_tries (t : tree) q : forall n, tries ask n (depth t) tt (x <- split bor cmp t q;; Ok (tt, x)) (split_t bor ask t q n).
  Proof.
    induction t as [|nk nv lh rh l IHl r IHr]; intros n; cbn [split split_t].
    - apply tries_ret. lia.
    - qu. destruct (cmp q (bor nk)).
      + apply tries_ret. lia.
      + eapply tries_after; [apply IHl|cbn [depth]; lia|reflexivity| |].
        * intros E. destruct (split bor cmp l q) as [[[? ?] ?]|]; [discriminate|reflexivity].
        * intros [] [[l1 kv] r1] n1 Hn E. destruct (split bor cmp l q) as [[[? ?] ?]|]; [|discriminate]. cbn in E. injection E as -> -> ->. cbn [bind].
          destruct (join r1 nk nv r); cbn [bind plain]; [apply tries_ret; cbn [depth]; lia|reflexivity].
      + eapply tries_after; [apply IHr|cbn [depth]; lia|reflexivity| |].
        * intros E. destruct (split bor cmp r q) as [[[? ?] ?]|]; [discriminate|reflexivity].
        * intros [] [[l1 kv] r1] n1 Hn E. destruct (split bor cmp r q) as [[[? ?] ?]|]; [|discriminate]. cbn in E. injection E as -> -> ->. cbn [bind].
          destruct (join l nk nv l1); cbn [bind plain]; [apply tries_ret; cbn [depth]; lia|reflexivity].
  Qed.
  Lemma merge_owns kl kr dec (t1 : tree) : forall t2 n, owns n (merge bor cmp kl kr dec t1 t2) (merge_t bor ask kl kr dec t1 t2 n).
  Proof.
    induction t1 as [|nk nv lh rh l IHl r IHr]; intros t2 n; cbn [merge merge_t].
    - destruct kr; now apply owns_ret.
    - destruct t2 as [|k2 v2 lh2 rh2 l2 r2]; [destruct kl; now apply owns_ret|]. set (t2 := Node k2 v2 lh2 rh2 l2 r2).
      eapply owns_after; [exists (depth t2); apply split_tries|]. intros _ [[lt kv] gt] n1 Hn _.
      eapply owns_after; [apply IHl|]. intros _ l' n2 Hn2 _. eapply owns_after; [apply IHr|]. intros _ r' n3 Hn3 _.
      now apply owns_plain.
  Qed.
  Lemma of_root_owns n m t : owns n m t -> owns n (avl_of_root (K:=K) (V:=V) m) (a_of_root_t t).
  Proof. intros H. eapply owns_after; [exact H|]. intros [] r n1 _ _. now apply owns_ret. Qed.
  Lemma a_sets_owns (a b : amap) n :
    owns n (avl_new_union bor cmp a b) (a_union_t bor ask a b n) /\ owns n (avl_new_intersect bor cmp a b) (a_intersect_t bor ask a b n)
    /\ owns n (avl_new_diff bor cmp a b) (a_diff_t bor ask a b n) /\ owns n (avl_new_sym_diff bor cmp a b) (a_sym_diff_t bor ask a b n).
  Proof. repeat split; apply of_root_owns, merge_owns. Qed.

  (** [append]. *)
  Lemma a_append_tries (a b : amap) n : exists most,
    tries ask n most (AvlMap (am_len a) Leaf, AvlMap (am_len b) Leaf) (m <- avl_append bor cmp a b;; Ok (m, tt)) (a_append_t bor ask a b n).
  Proof.
    unfold avl_append, a_append_t. destruct (merge_owns true true (fun _ rhs => Some rhs) (am_root a) (am_root b) n) as [most T]. exists most.
    eapply tries_after; [exact T|lia|reflexivity| |].
    - unfold union. destruct (merge _ _ _ _ _ _ _); [discriminate|reflexivity].
    - intros [] t n1 Hn E. unfold union. destruct (merge _ _ _ _ _ _ _); [|discriminate]. cbn in E. injection E as ->. cbn [bind]. apply tries_ret. lia.
  Qed.
  (** [split_off]: the questions of [split] and then those of [ins]. *)
  Lemma a_split_off_tries (m : amap) q n : 
    match a_split_off_t bor ask m q n with
    | Returned m' hi _ => avl_split_off bor cmp m q = Ok (m', hi)
    | Unwound m' n' => panicked ask n' /\ (m' = AvlMap (am_len m) Leaf
        \/ exists lhs k v rhs, split bor cmp (am_root m) q = Ok (lhs, Some (k, v), rhs) /\ m' = AvlMap (t_len lhs) lhs)
    | Fault => avl_split_off bor cmp m q = Panic
    end.
  Proof.
    unfold avl_split_off, a_split_off_t. pose proof (split_tries (am_root m) q n) as T. destruct (split_t bor ask (am_root m) q n) as [[] [[lhs kv] rhs] n1|[] n1|]; cbn [after tries] in *.
    - destruct T as [Hn E]. destruct (split bor cmp (am_root m) q) as [[[? ?] ?]|]; [|discriminate]. cbn in E. injection E as -> -> ->. cbn [bind].
      destruct (usize_sub (am_len m) (t_len lhs)) as [lr|]; cbn [bind]; auto. destruct kv as [[k v]|]; [|reflexivity].
      pose proof (ins_tries rhs k v n1) as T. destruct (ins_t bor ask rhs k v n1) as [rhs' [o b] n2|rhs' n2|]; cbn [after tries] in *.
      + destruct T as [_ T]. destruct (ins bor cmp rhs k v) as [[[? ?] ?]|]; [|discriminate]. cbn in T. injection T as -> -> ->. reflexivity.
      + destruct T as (_ & P & _). split; auto. right. exists lhs, k, v, rhs. auto.
      + destruct (ins bor cmp rhs k v) as [[[? ?] ?]|]; [discriminate|reflexivity].
    - destruct T as (_ & P & _). auto.
    - destruct (split bor cmp (am_root m) q) as [[[? ?] ?]|]; [discriminate|reflexivity].
  Qed.
  (** [extend]: it stops between two pairs. *)
  Lemma a_extend_tries ps : forall (m : amap) n,
    match a_extend_t bor ask m ps n with
    | Returned m' _ _ => avl_extend bor cmp m ps = Ok m'
    | Unwound m' n' => panicked ask n' /\ exists ps1 p ps2, ps = ps1 ++ p :: ps2 /\ avl_extend bor cmp m ps1 = Ok m'
    | Fault => avl_extend bor cmp m ps = Panic
    end.
  Proof.
    induction ps as [|[k v] ps IH]; intros m n; cbn [a_extend_t avl_extend]; auto.
    pose proof (a_insert_tries m k v n) as T. destruct (a_insert_t bor ask m k v n) as [m' r n1|m' n1|]; cbn [after tries] in *.
    - destruct T as [_ Ei]. rewrite Ei. cbn [bind]. specialize (IH m' n1). destruct (a_extend_t bor ask m' ps n1); auto. destruct IH as (P & ps1 & p & ps2 & -> & E).
      split; auto. exists ((k, v) :: ps1), p, ps2. split; auto. cbn [avl_extend]. now rewrite Ei.
    - destruct T as (_ & P & ->). split; auto. exists [], (k, v), ps. auto.
    - rewrite T. reflexivity.
  Qed.

  (** The entry API. *)
  Lemma a_and_modify_t_tries (m : amap) k (f : V -> V * bool) n :
    match a_and_modify_t bor ask m k f n with
    | Returned m' _ _ => m' = entry_and_modify bor cmp m k (fun v => fst (f v)) /\ (forall v, snd (avl_get_mut bor cmp m (bor k) (fun v => fst (f v))) = Some v -> snd (f v) = true)
    | Unwound m' n' => (panicked ask n' /\ m' = m)
        \/ (m' = entry_and_modify bor cmp m k (fun v => fst (f v)) /\ exists v, snd (avl_get_mut bor cmp m (bor k) (fun v => fst (f v))) = Some v /\ snd (f v) = false)
    | Fault => False
    end.
  Proof.
    unfold a_and_modify_t, entry_and_modify. pose proof (a_get_mut_tries m (bor k) (fun v => fst (f v)) n) as T.
    destruct (a_get_mut_t bor ask m (bor k) (fun v => fst (f v)) n) as [m' [v|] n1|m' n1|]; cbn [after tries] in *.
    - destruct T as [_ [= ->]]. cbn [fst snd]. destruct (snd (f v)) eqn:E.
      + split; auto. intros ? [= <-]. auto.
      + right. eauto.
    - destruct T as [_ [= ->]]. cbn [fst snd]. split; auto. discriminate.
    - destruct T as (_ & P & ->). auto.
    - discriminate.
  Qed.
  Lemma a_or_insert_t_tries (m : amap) k f w n :
    match a_or_insert_t bor ask m k f w n with
    | Returned m' x _ => match f with
        | Some v => entry_or_insert bor cmp m k v w = Ok (m', x)
        | None => avl_contains_key bor cmp m (bor k) = true /\ avl_get_mut bor cmp m (bor k) w = (m', Some x)
        end
    | Unwound m' n' => (f = None /\ avl_contains_key bor cmp m (bor k) = false /\ m' = m)
        \/ (panicked ask n' /\ (m' = m \/ exists v o, f = Some v /\ avl_contains_key bor cmp m (bor k) = false /\ avl_insert bor cmp m k v = Ok (m', o)))
    | Fault => match f with
        | Some v => entry_or_insert bor cmp m k v w = Panic
        | None => avl_contains_key bor cmp m (bor k) = true /\ snd (avl_get_mut bor cmp m (bor k) w) = None
        end
    end.
  Proof.
    unfold a_or_insert_t, entry_or_insert, entry_or_insert_with. pose proof (a_contains_tries m (bor k) n) as T.
    destruct (a_contains_t bor ask m (bor k) n) as [[] there n1|[] n1|]; cbn [after tries] in *; [|destruct T as (_ & P & _); auto|discriminate].
    destruct T as [_ [= ->]]. destruct there; cbn [negb after bind].
    - pose proof (a_get_mut_tries m (bor k) w n1) as T. destruct (a_get_mut_t bor ask m (bor k) w n1) as [m' o n2|m' n2|]; cbn [after tries] in *; [| |discriminate].
      + destruct T as [_ [= ->]]. destruct o as [x|]; cbn [unwrap bind plain]; destruct f; auto.
      + destruct T as (_ & P & ->). auto.
    - destruct f as [v|]; [|cbn [after]; auto]. pose proof (a_insert_tries m k v n1) as T.
      destruct (a_insert_t bor ask m k v n1) as [m' o n2|m' n2|]; cbn [after tries] in *.
      + destruct T as [_ Ei]. rewrite Ei. cbn [bind]. pose proof (a_get_mut_tries m' (bor k) w n2) as T2.
        destruct (a_get_mut_t bor ask m' (bor k) w n2) as [m2 o2 n3|m2 n3|]; cbn [after tries] in *; [| |discriminate].
        * destruct T2 as [_ [= ->]]. destruct o2; reflexivity.
        * destruct T2 as (_ & P & ->). right. split; auto. right. exists v, o. auto.
      + destruct T as (_ & P & ->). auto.
      + now rewrite T.
  Qed.
End AvlAsk.
