(** Fixed B-tree maps with comparisons that may panic. *)
From Coq Require Import List PeanoNat Bool Lia.
From Verif Require Import Base Spec Vec FixedModel Ask AskSpec AskProofs FixedAskModel BTreeAskProofs.
Import ListNotations.

Section Kids.
  Context {A B : Type}.
  Lemma init_nth (s : list (option A)) : forall l i x, all_init s = Ok l -> nth_error l i = Some x -> nth_error s i = Some (Some x).
  Proof.
    induction s as [|[y|] s IH]; intros l i x E Ei; cbn in E; try discriminate.
    - injection E as <-. destruct i; discriminate.
    - destruct (all_init s) as [l'|]; cbn in E; [|discriminate]. injection E as <-. destruct i; cbn in *; [congruence|eauto].
  Qed.
  Lemma init_map (f : A -> B) (s : list (option A)) :
    all_init (map (fun o => match o with Some c => Some (f c) | None => None end) s) = l <- all_init s;; Ok (map f l).
  Proof. induction s as [|[y|] s IH]; cbn; auto. rewrite IH. destruct (all_init s); auto. Qed.
  Lemma fchild_map (f : A -> B) d i : fchild (on_kids f d) i = o <- fchild d i;; Ok (option_map f o).
  Proof.
    destruct d as [[ps n]|]; auto. cbn [on_kids fchild kd_ptrs kd_len]. unfold live. rewrite map_length, firstn_map, init_map.
    unfold slot_read. rewrite nth_error_map. destruct (nth_error ps 0) as [[p|]|]; cbn [option_map bind]; auto.
    destruct (assert_ (n <=? length ps)); cbn [bind]; auto. destruct (all_init (firstn n ps)); cbn [bind]; auto. now rewrite nth_error_map.
  Qed.
  Lemma fchild_in (d : kids A) i c : fchild (Some d) i = Ok (Some c) -> nth_error (firstn (kd_len d) (kd_ptrs d)) i = Some (Some c).
  Proof.
    cbn [fchild]. unfold live. destruct (slot_read _ _); cbn [bind]; [|discriminate]. destruct (assert_ _); cbn [bind]; [|discriminate].
    destruct (all_init _) as [l|] eqn:E; cbn [bind]; [|discriminate]. intros [= H]. exact (init_nth _ _ _ _ E H).
  Qed.
  Lemma fchild_at (d : kids A) i c : fchild (Some d) i = Ok (Some c) -> nth_error (kd_ptrs d) i = Some (Some c).
  Proof.
    intros H. apply fchild_in in H. rewrite <- (firstn_skipn (kd_len d) (kd_ptrs d)). rewrite nth_error_app1; auto. apply nth_error_Some. congruence.
  Qed.
  Lemma fput_same (d : option (kids A)) i c : fchild d i = Ok (Some c) -> fput d i c = d.
  Proof.
    destruct d as [d|]; [|discriminate]. intros H. apply fchild_at in H. cbn [fput]. rewrite (set_same _ _ _ H). now destruct d.
  Qed.
End Kids.

Section FixedAsk.
  Context {K V Q : Type} (bor : K -> Q) (cmp : Q -> Q -> comparison) (ask : nat -> Q -> Q -> option comparison) (sk : bool).
  Notation fnode := (fnode K V).
  Notation fmap := (f_map K V).
  Notation entry := (K * V)%type.

  Lemma fn_deep (P : fnode -> Prop) : (forall e d, (forall i c, fchild d i = Ok (Some c) -> P c) -> P (FNode e d)) -> forall x, P x.
  Proof.
    intros H. fix IH 1. intros [e d]. apply H. clear H. destruct d as [[ps n]|]; [|discriminate].
    intros i c E. apply fchild_at in E. cbn in E. clear e n. revert i c E. induction ps as [|[x|] ps IHp]; intros [|i] c E; cbn in E; try discriminate.
    - injection E as <-. apply IH.
    - apply (IHp i c E).
    - apply (IHp i c E).
  Qed.

  (** ** What unwinding leaves, for any answers *)
  Lemma lin_keeps q ks : forall i n, keeps ask tt (lin_t bor ask q ks i n).
  Proof. induction ks as [|k ks IH]; intros i n; cbn [lin_t]; [discriminate|]. apply keeps_question. intros [| |] n1; try discriminate. apply IH. Qed.
  Lemma bin_keeps fuel q ks : forall l r n, keeps ask tt (bin_t bor ask fuel q ks l r n).
  Proof.
    induction fuel as [|fuel IH]; intros l r n; cbn [bin_t]; (destruct (l <? r); [|discriminate]); [discriminate|].
    destruct (nth_error _ _); [|discriminate]. apply keeps_question. intros [| |] n1; [discriminate|apply IH|apply IH].
  Qed.
  Lemma search_keeps q (e : elems K V) n : keeps ask tt (search_t bor ask sk q e n).
  Proof. unfold search_t. destruct (live _ _); [|discriminate]. destruct sk; [apply lin_keeps|apply bin_keeps]. Qed.
  Ltac sc := eapply keeps_after; [apply search_keeps|reflexivity|]; intros _ [i|i] n1.
  Ltac kid IH := let c' := fresh "kid" in let E := fresh "Ek" in
    rewrite !fchild_map; match goal with |- context [fchild ?d ?i] => destruct (fchild d i) as [[c'|]|] eqn:E end;
    cbn [option_map bind]; [specialize (IH _ _ E)| |].
  Ltac sub IH E := eapply keeps_after; [apply IH|rewrite (fput_same _ _ _ E); reflexivity|].
  Lemma fn_get_keeps q x : forall n, keeps ask tt (fn_get_t (V:=V) bor ask sk q x n).
  Proof. induction x as [e d IH] using fn_deep; intros n; cbn [fn_get_t]. sc; [apply keeps_plain|]. kid IH; [apply IH| |]; discriminate. Qed.
  Lemma fn_get_mut_keeps q w x : forall n, keeps ask x (fn_get_mut_t (V:=V) bor ask sk q w x n).
  Proof. induction x as [e d IH] using fn_deep; intros n; cbn [fn_get_mut_t]. sc; [apply keeps_plain|]. kid IH; [sub IH Ek| |]; discriminate. Qed.
  Lemma fn_insert_keeps kv x : forall n, keeps ask x (fn_insert_t (V:=V) bor ask sk kv x n).
  Proof.
    induction x as [e d IH] using fn_deep; intros n; cbn [fn_insert_t]. sc; [apply keeps_plain|]. kid IH; [| |discriminate].
    - eapply keeps_after; [sub IH Ek; discriminate|reflexivity|]. intros; apply keeps_plain.
    - cbn [after]. apply keeps_plain.
  Qed.
  Lemma fn_remove_keeps q x : forall n, keeps ask x (fn_remove_t (V:=V) bor ask sk q x n).
  Proof.
    induction x as [e d IH] using fn_deep; intros n; cbn [fn_remove_t]. sc; [apply keeps_plain|]. kid IH; [| |]; try discriminate.
    sub IH Ek. intros; apply keeps_plain.
  Qed.
  Lemma f_get_keeps (m : fmap) q n : keeps ask tt (f_get_t bor ask sk m q n).
  Proof. unfold f_get_t. destruct (fm_root m); [|discriminate]. eapply keeps_after; [apply fn_get_keeps|reflexivity|]. discriminate. Qed.
  Lemma f_get_mut_keeps (m : fmap) q w n : keeps ask m (f_get_mut_t bor ask sk m q w n).
  Proof. destruct m as [[x|] len]; cbn; [|discriminate]. eapply keeps_after; [apply fn_get_mut_keeps|reflexivity|]. discriminate. Qed.
  Lemma f_insert_keeps (m : fmap) k v n : keeps ask m (f_insert_t bor ask sk m k v n).
  Proof.
    destruct m as [[x|] len]; [|apply keeps_plain]. cbn [f_insert_t fm_root fm_len]. eapply keeps_after; [apply fn_insert_keeps|reflexivity|]. intros; apply keeps_plain.
  Qed.
  Lemma f_remove_keeps (m : fmap) q n : keeps ask m (f_remove_t bor ask sk m q n).
  Proof.
    destruct m as [[x|] len]; cbn [f_remove_t fm_root fm_len]; [|discriminate]. eapply keeps_after; [apply fn_remove_keeps|reflexivity|]. intros; apply keeps_plain.
  Qed.

  (** ** The questions are answered as [cmp] would: up to panics these are the functions of [FixedModel] *)
  Context (A : answers cmp ask).
  (** The most questions one node can cost, and the most on a way from a node to a leaf. *)
  Definition el_asks (e : elems K V) : nat := if sk then el_len e else S (Nat.log2 (el_len e)).
  Fixpoint fn_asks (x : fnode) : nat :=
    match x with
    | FNode e d => el_asks e + match d with
                               | None => 0
                               | Some (Kids ps n) => list_max (firstn n (map (fun o => match o with Some c => fn_asks c | None => 0 end) ps))
                               end
    end.
  Definition f_asks (m : fmap) : nat := match fm_root m with None => 0 | Some x => fn_asks x end.
  Lemma fasks_own e d : el_asks e <= fn_asks (FNode e d).
  Proof. cbn. lia. Qed.
  Lemma fasks_kid e d i c : fchild d i = Ok (Some c) -> el_asks e + fn_asks c <= fn_asks (FNode e d).
  Proof.
    destruct d as [[ps n]|]; [|discriminate]. intros E. apply fchild_in, nth_error_In in E. cbn [kd_ptrs kd_len fn_asks] in *. rewrite firstn_map.
    set (g := fun o : option fnode => match o with Some c => fn_asks c | None => 0 end).
    assert (F : Forall (fun k => k <= list_max (map g (firstn n ps))) (map g (firstn n ps))) by (apply list_max_le; lia).
    rewrite Forall_forall in F. specialize (F _ (in_map g _ _ E)). cbn in F. lia.
  Qed.

  Lemma lin_tries q ks : forall i n, tries ask n (length ks) tt (Ok (tt, lin_search bor cmp q ks i)) (lin_t bor ask q ks i n).
  Proof.
    induction ks as [|k ks IH]; intros i n; cbn [lin_search lin_t length]; [apply tries_ret; lia|].
    apply (tries_question cmp); [exact A|lia|]. destruct (cmp q (bor k)); [apply tries_ret; lia|apply tries_ret; lia|].
    eapply tries_more; [|apply IH]. lia.
  Qed.
  Lemma bin_tries q ks : forall fuel l r n most, r - l < 2 ^ most ->
    tries ask n most tt (x <- bin_search bor cmp fuel q ks l r;; Ok (tt, x)) (bin_t bor ask fuel q ks l r n).
  Proof.
    induction fuel as [|fuel IH]; intros l r n most L; cbn [bin_search bin_t]; destruct (Nat.ltb_spec l r) as [Hlt|]; try (apply tries_ret; lia); [reflexivity|].
    destruct most as [|most]; [cbn in L; lia|]. rewrite Nat.pow_succ_r' in L. set (d := Nat.div2 (r - l)).
    assert (Hd : r - l = 2 * d \/ r - l = S (2 * d)).
    { unfold d. destruct (Nat.Even_or_Odd (r - l)) as [Hev|Hod]; [left|right].
      - apply Nat.Even_double in Hev. unfold Nat.double in Hev. lia.
      - apply Nat.Odd_double in Hod. unfold Nat.double in Hod. lia. }
    clearbody d.
    destruct (nth_error ks (l + d)) as [k|]; cbn [unwrap bind]; [|reflexivity].
    apply (tries_question cmp); [exact A|lia|]. replace (S most - 1) with most by lia. destruct (cmp (bor k) q).
    - apply tries_ret. lia.
    - apply IH. lia.
    - apply IH. lia.
  Qed.
  Lemma live_len {X} (s : list (option X)) n l : live s n = Ok l -> length l = n.
  Proof.
    unfold live. destruct (slot_read s 0); cbn [bind]; [|discriminate]. unfold assert_. destruct (Nat.leb_spec n (length s)) as [H|]; cbn [bind]; [|discriminate].
    intros E. rewrite <- (firstn_length_le s H). revert l E. induction (firstn n s) as [|[y|] s' IH]; intros l E; cbn in E; try discriminate.
    - now injection E as <-.
    - destruct (all_init s') as [l'|]; cbn in E; [|discriminate]. injection E as <-. cbn. f_equal. auto.
  Qed.
  Lemma search_tries q (e : elems K V) n : tries ask n (el_asks e) tt (x <- search_keys bor cmp sk q e;; Ok (tt, x)) (search_t bor ask sk q e n).
  Proof.
    unfold search_t, search_keys, el_asks. destruct (live _ _) as [ks|] eqn:E; cbn [bind]; [|reflexivity]. apply live_len in E. rewrite <- E. destruct sk.
    - apply lin_tries.
    - apply bin_tries. rewrite Nat.sub_0_r. destruct (length ks) as [|m]; [cbn; lia|]. apply Nat.log2_spec. lia.
  Qed.
  Ltac st := match goal with |- tries _ _ _ _ _ (after (search_t _ _ _ ?q ?e _) _ _) =>
    eapply (tries_after ask _ (el_asks e)); [apply search_tries|apply fasks_own|reflexivity
      |intros ES; destruct (search_keys bor cmp sk q e); [discriminate|reflexivity]|];
    intros [] r n1 Hn ES; destruct (search_keys bor cmp sk q e) as [r0|]; [|discriminate]; cbn [bind] in ES; injection ES as ->; cbn [bind];
    match goal with |- context [FNode e ?d] => pose proof (fasks_own e d) as Ho; pose proof (fasks_kid e d) as Ha | _ => idtac end end.
  Ltac pl := match goal with |- tries _ _ _ _ ?a (plain ?b _) => replace a with b; [apply tries_plain; lia|] end.
  Lemma fn_get_tries q x : forall n, tries ask n (fn_asks x) tt (o <- fn_get bor cmp sk q x;; Ok (tt, o)) (fn_get_t (V:=V) bor ask sk q x n).
  Proof.
    induction x as [e d IH] using fn_deep; intros n; cbn [fn_get fn_get_t]. st. destruct r as [i|i].
    - pl. destruct (el_get e i); auto.
    - kid IH; [|apply tries_ret; lia|reflexivity]. specialize (Ha _ _ Ek). eapply tries_more; [|apply IH]. lia.
  Qed.
  Lemma fn_get_mut_tries q w x : forall n, tries ask n (fn_asks x) x (fn_get_mut bor cmp sk q w x) (fn_get_mut_t (V:=V) bor ask sk q w x n).
  Proof.
    induction x as [e d IH] using fn_deep; intros n; cbn [fn_get_mut fn_get_mut_t]. st. destruct r as [i|i].
    - apply tries_plain. lia.
    - kid IH; [|apply tries_ret; lia|reflexivity]. specialize (Ha _ _ Ek). eapply tries_after; [apply IH|lia|now rewrite (fput_same _ _ _ Ek)| |].
      + now intros ->.
      + intros c' r n2 Hn2 ->. apply tries_ret. lia.
  Qed.
  Lemma fn_insert_tries kv x : forall n, tries ask n (fn_asks x) x (fn_insert bor cmp sk kv x) (fn_insert_t (V:=V) bor ask sk kv x n).
  Proof.
    induction x as [e d IH] using fn_deep; intros n; cbn [fn_insert fn_insert_t]. st. destruct r as [i|i].
    - apply tries_plain. lia.
    - kid IH; [| |reflexivity].
      + specialize (Ha _ _ Ek). eapply (tries_after ask n1 (fn_asks kid)); [|lia|reflexivity| |].
        * eapply (tries_after ask n1 (fn_asks kid) (fn_asks kid) _ (FNode e d) _ ('(c', r) <- fn_insert bor cmp sk kv kid;; Ok (FNode e (fput d i c'), r)));
            [apply IH|lia|now rewrite (fput_same _ _ _ Ek)| |].
          -- now intros ->.
          -- intros c' r n2 Hn2 ->. apply tries_ret. lia.
        * now intros ->.
        * intros x1 r n2 Hn2 ->. cbn [bind]. apply tries_plain. lia.
      + cbn [after bind]. apply tries_plain. lia.
  Qed.
  Lemma fn_remove_tries q x : forall n, tries ask n (fn_asks x) x (fn_remove bor cmp sk q x) (fn_remove_t (V:=V) bor ask sk q x n).
  Proof.
    induction x as [e d IH] using fn_deep; intros n; cbn [fn_remove fn_remove_t]. st. destruct r as [i|i].
    - apply tries_plain. lia.
    - kid IH; [|apply tries_ret; lia|reflexivity]. specialize (Ha _ _ Ek). eapply tries_after; [apply IH|lia|now rewrite (fput_same _ _ _ Ek)| |].
      + now intros ->.
      + intros c' r n2 Hn2 ->. cbn [bind]. apply tries_plain. lia.
  Qed.
  Lemma f_get_tries (m : fmap) q n : tries ask n (f_asks m) tt (o <- f_get bor cmp sk m q;; Ok (tt, o)) (f_get_t bor ask sk m q n).
  Proof.
    unfold f_get, f_get_t, f_asks. destruct (fm_root m) as [x|]; [|apply tries_ret; lia]. eapply tries_after; [apply fn_get_tries|lia|reflexivity| |].
    - intros E. destruct (fn_get bor cmp sk q x); [discriminate|reflexivity].
    - intros [] o n1 Hn E. destruct (fn_get bor cmp sk q x); [|discriminate]. cbn in E. injection E as ->. apply tries_ret. lia.
  Qed.
  Lemma f_get_mut_tries (m : fmap) q w n : tries ask n (f_asks m) m (f_get_mut bor cmp sk m q w) (f_get_mut_t bor ask sk m q w n).
  Proof.
    destruct m as [[x|] len]; unfold f_get_mut, f_get_mut_t, f_asks; cbn [fm_root fm_len]; [|apply tries_ret; lia].
    eapply tries_after; [apply fn_get_mut_tries|lia|reflexivity| |].
    - now intros ->.
    - intros x' o n1 Hn ->. apply tries_ret. lia.
  Qed.
  Lemma f_insert_tries (m : fmap) k v n : tries ask n (f_asks m) m (f_insert bor cmp sk m k v) (f_insert_t bor ask sk m k v n).
  Proof.
    destruct m as [[x|] len]; unfold f_insert, f_insert_t, f_asks; cbn [fm_root fm_len]; [|apply tries_plain; lia].
    eapply tries_after; [apply fn_insert_tries|lia|reflexivity| |].
    - now intros ->.
    - intros x' o n1 Hn ->. apply tries_plain. lia.
  Qed.
  Lemma f_remove_tries (m : fmap) q n : tries ask n (f_asks m) m (f_remove bor cmp sk m q) (f_remove_t bor ask sk m q n).
  Proof.
    destruct m as [[x|] len]; unfold f_remove, f_remove_entry, f_remove_t, f_asks; cbn [fm_root fm_len]; [|apply tries_ret; lia].
    eapply tries_after; [apply fn_remove_tries|lia|reflexivity| |].
    - now intros ->.
    - intros x' o n1 Hn ->. cbn [bind]. pl. destruct o as [[kv under]|]; auto. destruct (usize_sub len 1); cbn [bind]; auto.
      destruct (under && fn_is_empty x'); cbn [bind]; auto. destruct (fn_pop_child x'); auto.
  Qed.
  Lemma f_extend_tries ps : forall (m : fmap) n,
    match f_extend_t bor ask sk m ps n with
    | Returned m' _ _ => f_extend bor cmp sk m ps = Ok m'
    | Unwound m' n' => panicked ask n' /\ exists ps1 p ps2, ps = ps1 ++ p :: ps2 /\ f_extend bor cmp sk m ps1 = Ok m'
    | Fault => f_extend bor cmp sk m ps = Panic
    end.
  Proof.
    induction ps as [|[k v] ps IH]; intros m n; cbn [f_extend_t f_extend]; auto.
    pose proof (f_insert_tries m k v n) as T. destruct (f_insert_t bor ask sk m k v n) as [m' r n1|m' n1|]; cbn [after tries] in *.
    - destruct T as [_ Ei]. rewrite Ei. cbn [bind]. specialize (IH m' n1). destruct (f_extend_t bor ask sk m' ps n1); auto. destruct IH as (P & ps1 & p & ps2 & -> & E).
      split; auto. exists ((k, v) :: ps1), p, ps2. split; auto. cbn [f_extend]. now rewrite Ei.
    - destruct T as (_ & P & ->). split; auto. exists [], (k, v), ps. auto.
    - rewrite T. reflexivity.
  Qed.
End FixedAsk.
