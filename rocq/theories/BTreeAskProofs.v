(** B-tree maps with comparisons that may panic. *)
From Coq Require Import List PeanoNat Bool Lia.
From Verif Require Import Base Spec Vec BTreeModel BTreeIterModel BTreeHistModel BTreeShows Ask AskSpec AskProofs BTreeAskModel.
Import ListNotations.

Lemma set_same {A} (l : list A) : forall i x, nth_error l i = Some x -> set_at i x l = l.
Proof.
  intros i x E. apply nth_error_split in E as (l1 & l2 & -> & <-). now apply set_at_mid.
Qed.

Section BTreeAsk.
  Context {K V Q : Type} (bor : K -> Q) (cmp : Q -> Q -> comparison) (ask : nat -> Q -> Q -> option comparison) (N : nat).
  Notation bt := (bt K V).
  Notation bmap := (bt_map K V).
  Notation entry := (K * V)%type.

  Lemma bt_deep (P : bt -> Prop) : (forall es ks, (forall i c, nth_error ks i = Some c -> P c) -> P (BN es ks)) -> forall t, P t.
  Proof.
    intros H. fix IH 1. intros [es ks]. apply H. clear H. induction ks as [|k ks IHk]; intros [|i] c E; cbn in E; try discriminate.
    - injection E as <-. apply IH.
    - apply (IHk i c E).
  Qed.

  (** ** What unwinding leaves, for any answers *)
  Lemma scan_keeps q (es : list entry) : forall n, keeps ask tt (scan_t bor ask q es n).
  Proof.
    induction es as [|e es IH]; intros n; cbn [scan_t]; [discriminate|]. apply keeps_question. intros [| |] n1; try discriminate.
    eapply keeps_after; [apply IH|reflexivity|]. intros ? [? ?] ?. discriminate.
  Qed.
  Ltac sc := eapply keeps_after; [apply scan_keeps|reflexivity|]; intros _ [i c] n1.
  Ltac kid IH := let c' := fresh "kid" in let E := fresh "Ek" in
    unfold last_opt; rewrite ?map_length, !nth_error_map; match goal with |- context [nth_error ?ks ?i] => destruct (nth_error ks i) as [c'|] eqn:E end;
    cbn [option_map]; [specialize (IH _ _ E)|].
  Ltac sub IH E := eapply keeps_after; [apply IH|rewrite (set_same _ _ _ E); reflexivity|].
  Lemma n_get_keeps q t : forall n, keeps ask tt (n_get_t (V:=V) bor ask q t n).
  Proof.
    induction t as [es ks IH] using bt_deep; intros n; cbn [n_get_t]. sc. destruct c; [discriminate| |]; (kid IH; [apply IH|discriminate]).
  Qed.
  Lemma n_contains_keeps q t : forall n, keeps ask tt (n_contains_t (V:=V) bor ask q t n).
  Proof.
    induction t as [es ks IH] using bt_deep; intros n; cbn [n_contains_t]. sc. destruct c; [discriminate| |]; (kid IH; [apply IH|discriminate]).
  Qed.
  Lemma n_get_mut_keeps q w t : forall n, keeps ask t (n_get_mut_t (V:=V) bor ask q w t n).
  Proof.
    induction t as [es ks IH] using bt_deep; intros n; cbn [n_get_mut_t]. sc. destruct c.
    - destruct (nth_error es i); discriminate.
    - kid IH; [sub IH Ek|]; discriminate.
    - kid IH; [sub IH Ek|]; discriminate.
  Qed.
  Lemma n_insert_keeps k v t : forall n, keeps ask t (n_insert_t (V:=V) bor ask N k v t n).
  Proof.
    induction t as [es ks IH] using bt_deep; intros n; cbn [n_insert_t]. sc. destruct c; [apply keeps_plain| |].
    - eapply (keeps_after ask ks); [|reflexivity|intros; apply keeps_plain]. kid IH; [|discriminate]. sub IH Ek. discriminate.
    - eapply (keeps_after ask ks); [|reflexivity|intros; apply keeps_plain]. kid IH; [|discriminate]. sub IH Ek. discriminate.
  Qed.
  Lemma n_remove_keeps q t : forall n, keeps ask t (n_remove_t (V:=V) bor ask N q t n).
  Proof.
    induction t as [es ks IH] using bt_deep; intros n; cbn [n_remove_t]. sc. destruct c; [apply keeps_plain| |].
    - kid IH; [|discriminate]. sub IH Ek. intros; apply keeps_plain.
    - kid IH; [|discriminate]. sub IH Ek. intros; apply keeps_plain.
  Qed.
  Lemma b_contains_keeps (m : bmap) q n : keeps ask tt (b_contains_t bor ask m q n).
  Proof. unfold b_contains_t. destruct (bm_root m); [apply n_contains_keeps|discriminate]. Qed.
  Lemma b_get_keeps (m : bmap) q n : keeps ask tt (b_get_t bor ask m q n).
  Proof. unfold b_get_t. destruct (bm_root m); [|discriminate]. eapply keeps_after; [apply n_get_keeps|reflexivity|]. discriminate. Qed.
  Lemma b_get_mut_keeps (m : bmap) q w n : keeps ask m (b_get_mut_t bor ask m q w n).
  Proof.
    destruct m as [len [t|]]; cbn; [|discriminate]. eapply keeps_after; [apply n_get_mut_keeps|reflexivity|]. discriminate.
  Qed.
  Lemma b_insert_keeps (m : bmap) k v n : keeps ask m (b_insert_t bor ask N m k v n).
  Proof.
    destruct m as [len [t|]]; cbn; [|discriminate]. eapply keeps_after; [apply n_insert_keeps|reflexivity|]. intros; apply keeps_plain.
  Qed.
  Lemma b_remove_keeps (m : bmap) q n : keeps ask m (b_remove_t bor ask N m q n).
  Proof.
    unfold b_remove_t. eapply keeps_after; [apply b_contains_keeps|reflexivity|]. intros _ [|] n1; [|discriminate].
    destruct m as [len [t|]]; cbn; [|discriminate]. eapply keeps_after; [apply n_remove_keeps|reflexivity|]. intros; apply keeps_plain.
  Qed.

  (** ** The questions are answered as [cmp] would: up to panics these are the functions of [BTreeModel] *)
  Context (A : answers cmp ask).
  (** The most keys on a way from a node to a leaf. *)
  Fixpoint n_asks (t : bt) : nat := match t with BN es ks => length es + list_max (map n_asks ks) end.
  Definition b_asks (m : bmap) : nat := match bm_root m with None => 0 | Some t => n_asks t end.
  Lemma asks_kid es (ks : list bt) i c : nth_error ks i = Some c -> length es + n_asks c <= n_asks (BN es ks).
  Proof.
    intros E. cbn. apply nth_error_In in E. assert (n_asks c <= list_max (map n_asks ks)); [|lia].
    assert (F : Forall (fun k => k <= list_max (map n_asks ks)) (map n_asks ks)) by (apply list_max_le; lia).
    rewrite Forall_forall in F. apply F. now apply in_map.
  Qed.
  Lemma asks_own (es : list entry) ks : length es <= n_asks (BN es ks).
  Proof. cbn. lia. Qed.

  Lemma scan_tries q (es : list entry) : forall n, tries ask n (length es) tt (Ok (tt, scan bor cmp q es)) (scan_t bor ask q es n).
  Proof.
    induction es as [|e es IH]; intros n; cbn [scan scan_t length].
    - apply tries_ret. lia.
    - apply (tries_question cmp); [exact A|lia|]. destruct (cmp q (bor (fst e))).
      + apply tries_ret. lia.
      + apply tries_ret. lia.
      + eapply tries_after; [apply IH|lia|reflexivity|discriminate|]. intros [] [i c] n1 Hn [= E]. rewrite E. apply tries_ret. lia.
  Qed.
  Ltac st := match goal with |- tries _ _ _ _ _ (after (scan_t _ _ ?q ?es _) _ _) =>
    eapply (tries_after ask _ (length es)); [apply scan_tries|apply asks_own|reflexivity|discriminate|];
    intros [] [i c] n1 Hn [= Es]; rewrite Es; clear Es;
    match goal with |- context [BN es ?ks] => pose proof (asks_own es ks) as Ho; pose proof (asks_kid es ks) as Ha | _ => idtac end end.
  Ltac pl := match goal with |- tries _ _ _ _ ?a (plain ?b _) => replace a with b; [apply tries_plain; lia|] end.
  Lemma n_get_tries q t : forall n, tries ask n (n_asks t) tt (Ok (tt, n_get bor cmp q t)) (n_get_t (V:=V) bor ask q t n).
  Proof.
    induction t as [es ks IH] using bt_deep; intros n; cbn [n_get n_get_t]. st. destruct c.
    - apply tries_ret. lia.
    - kid IH; [|apply tries_ret; lia]. specialize (Ha _ _ Ek). eapply tries_more; [|apply IH]. lia.
    - kid IH; [|apply tries_ret; lia]. specialize (Ha _ _ Ek). eapply tries_more; [|apply IH]. lia.
  Qed.
  Lemma n_contains_tries q t : forall n, tries ask n (n_asks t) tt (Ok (tt, n_contains bor cmp q t)) (n_contains_t (V:=V) bor ask q t n).
  Proof.
    induction t as [es ks IH] using bt_deep; intros n; cbn [n_contains n_contains_t]. st. destruct c.
    - apply tries_ret. lia.
    - kid IH; [|apply tries_ret; lia]. specialize (Ha _ _ Ek). eapply tries_more; [|apply IH]. lia.
    - kid IH; [|apply tries_ret; lia]. specialize (Ha _ _ Ek). eapply tries_more; [|apply IH]. lia.
  Qed.
  Lemma n_get_mut_tries q w t : forall n, tries ask n (n_asks t) t (Ok (n_get_mut bor cmp q w t)) (n_get_mut_t (V:=V) bor ask q w t n).
  Proof.
    induction t as [es ks IH] using bt_deep; intros n; cbn [n_get_mut n_get_mut_t]. st. destruct c.
    - destruct (nth_error es i); apply tries_ret; lia.
    - kid IH; [|apply tries_ret; lia]. specialize (Ha _ _ Ek). eapply tries_after; [apply IH|lia|now rewrite (set_same _ _ _ Ek)|discriminate|].
      intros c' r n2 Hn2 [= E]. rewrite E. apply tries_ret. lia.
    - kid IH; [|apply tries_ret; lia]. specialize (Ha _ _ Ek). eapply tries_after; [apply IH|lia|now rewrite (set_same _ _ _ Ek)|discriminate|].
      intros c' r n2 Hn2 [= E]. rewrite E. apply tries_ret. lia.
  Qed.
  Lemma n_insert_tries k v t : forall n, tries ask n (n_asks t) t (n_insert bor cmp N k v t) (n_insert_t (V:=V) bor ask N k v t n).
  Proof.
    induction t as [es ks IH] using bt_deep; intros n; cbn [n_insert n_insert_t]. st.
    assert (G : tries ask n1 (n + n_asks (BN es ks) - n1) (BN es ks)
       ('(ks1, r) <- match nth_error (map (n_insert bor cmp N k v) ks) i with Some m => '(c', r) <- m;; Ok (set_at i c' ks, r) | None => Ok (ks, Split None k v) end;;
        match r with
        | Split child k1 v1 =>
          es1 <- vec_insert i (k1, v1) es;;
          ks2 <- match child with Some rc => vec_insert i rc ks1 | None => Ok ks1 end;;
          if length es1 <=? MAX_OCC N then Ok (BN es1 ks2, Absorbed) else n_split N (BN es1 ks2)
        | _ => Ok (BN es ks1, r)
        end)
       (after (match nth_error (map (n_insert_t bor ask N k v) ks) i with
               | Some f => after (f n1) (fun c' => set_at i c' ks) (fun c' r n => Returned (set_at i c' ks) r n)
               | None => Returned ks (Split None k v) n1
               end) (BN es) (fun ks1 r n =>
        plain
          match r with
          | Split child k1 v1 =>
            es1 <- vec_insert i (k1, v1) es;;
            ks2 <- match child with Some rc => vec_insert i rc ks1 | None => Ok ks1 end;;
            if length es1 <=? MAX_OCC N then Ok (BN es1 ks2, Absorbed) else n_split N (BN es1 ks2)
          | _ => Ok (BN es ks1, r)
          end n))).
    { eapply (tries_after ask n1 (n + n_asks (BN es ks) - n1) _ ks); [|lia|reflexivity| |].
      - rewrite !nth_error_map. instantiate (1 := match nth_error ks i with Some c => '(c', r) <- n_insert bor cmp N k v c;; Ok (set_at i c' ks, r) | None => Ok (ks, Split None k v) end).
        destruct (nth_error ks i) as [kid|] eqn:Ek; cbn [option_map]; [|apply tries_ret; lia]. specialize (Ha _ _ Ek).
        eapply tries_after; [apply (IH _ _ Ek)|lia|now apply set_same| |].
        + intros ->. reflexivity.
        + intros c' r n2 Hn2 ->. apply tries_ret. lia.
      - intros E. rewrite nth_error_map. destruct (nth_error ks i); cbn [option_map]; [now rewrite E|discriminate].
      - intros ks1 r n2 Hn2 E. rewrite nth_error_map. destruct (nth_error ks i); cbn [option_map]; rewrite E; cbn [bind]; apply tries_plain; lia. }
    destruct c; [|exact G|exact G]. apply tries_plain. lia.
  Qed.
  Lemma n_remove_tries q t : forall n, tries ask n (n_asks t) t (n_remove bor cmp N q t) (n_remove_t (V:=V) bor ask N q t n).
  Proof.
    induction t as [es ks IH] using bt_deep; intros n; cbn [n_remove n_remove_t]. st. destruct c.
    - apply tries_plain. lia.
    - kid IH; [|apply tries_ret; lia]. specialize (Ha _ _ Ek). eapply tries_after; [apply IH|lia|now rewrite (set_same _ _ _ Ek)| |].
      + intros ->. reflexivity.
      + intros c' r n2 Hn2 ->. cbn [bind]. apply tries_plain. lia.
    - kid IH; [|apply tries_ret; lia]. specialize (Ha _ _ Ek). eapply tries_after; [apply IH|lia|now rewrite (set_same _ _ _ Ek)| |].
      + intros ->. reflexivity.
      + intros c' r n2 Hn2 ->. cbn [bind]. apply tries_plain. lia.
  Qed.
  Lemma b_contains_tries (m : bmap) q n : tries ask n (b_asks m) tt (Ok (tt, b_contains_key bor cmp m q)) (b_contains_t bor ask m q n).
  Proof. unfold b_contains_key, b_contains_t, b_asks. destruct (bm_root m); [apply n_contains_tries|apply tries_ret; lia]. Qed.
  Lemma b_get_tries (m : bmap) q n : tries ask n (b_asks m) tt (Ok (tt, b_get bor cmp m q)) (b_get_t bor ask m q n).
  Proof.
    unfold b_get, b_get_key_value, b_get_t, b_asks. destruct (bm_root m); [|apply tries_ret; lia].
    eapply tries_after; [apply n_get_tries|lia|reflexivity|discriminate|]. intros [] o n1 Hn [= ->]. apply tries_ret. lia.
  Qed.
  Lemma b_get_mut_tries (m : bmap) q w n : tries ask n (b_asks m) m (Ok (b_get_mut bor cmp m q w)) (b_get_mut_t bor ask m q w n).
  Proof.
    destruct m as [len [t|]]; cbn; [|split; [lia|reflexivity]]. eapply tries_after; [apply n_get_mut_tries|reflexivity|reflexivity|discriminate|].
    intros t' o n1 Hn [= ->]. apply tries_ret. lia.
  Qed.
  Lemma b_insert_tries (m : bmap) k v n : tries ask n (b_asks m) m (b_insert bor cmp N m k v) (b_insert_t bor ask N m k v n).
  Proof.
    destruct m as [len [t|]]; cbn; [|split; [lia|reflexivity]]. eapply tries_after; [apply n_insert_tries|reflexivity|reflexivity| |].
    - intros ->. reflexivity.
    - intros t' r n1 Hn ->. cbn [bind]. apply tries_plain. lia.
  Qed.
  Lemma b_remove_tries (m : bmap) q n : tries ask n (2 * b_asks m) m (b_remove bor cmp N m q) (b_remove_t bor ask N m q n).
  Proof.
    unfold b_remove_t, b_remove. eapply tries_after; [apply b_contains_tries|lia|reflexivity|discriminate|]. intros [] there n1 Hn [= ->].
    destruct (negb there); [apply tries_ret; lia|]. unfold rm_and_rebal. destruct m as [len [t|]]; cbn [bm_root bm_len b_asks] in *; [|apply tries_ret; lia].
    eapply tries_after; [apply n_remove_tries|unfold b_asks in *; cbn in *; lia|reflexivity| |].
    - intros ->. reflexivity.
    - intros t' r n2 Hn2 ->. cbn [bind]. unfold b_asks in *; cbn [bm_root] in *. pl. destruct r as [[old under]|]; auto. destruct (usize_sub len 1); cbn [bind]; auto.
      destruct (under && is_nil (elems_of t')); auto. destruct (assert_ _); auto.
  Qed.
  Lemma b_extend_tries ps : forall (m : bmap) n,
    match b_extend_t bor ask N m ps n with
    | Returned m' _ _ => b_extend bor cmp N m ps = Ok m'
    | Unwound m' n' => panicked ask n' /\ exists ps1 p ps2, ps = ps1 ++ p :: ps2 /\ b_extend bor cmp N m ps1 = Ok m'
    | Fault => b_extend bor cmp N m ps = Panic
    end.
  Proof.
    induction ps as [|[k v] ps IH]; intros m n; cbn [b_extend_t b_extend]; auto.
    pose proof (b_insert_tries m k v n) as T. destruct (b_insert_t bor ask N m k v n) as [m' r n1|m' n1|]; cbn [after tries] in *.
    - destruct T as [_ Ei]. rewrite Ei. cbn [bind]. specialize (IH m' n1). destruct (b_extend_t bor ask N m' ps n1); auto. destruct IH as (P & ps1 & p & ps2 & -> & E).
      split; auto. exists ((k, v) :: ps1), p, ps2. split; auto. cbn [b_extend]. now rewrite Ei.
    - destruct T as (_ & P & ->). split; auto. exists [], (k, v), ps. auto.
    - rewrite T. reflexivity.
  Qed.

  (** The entry API. *)
  Lemma b_and_modify_t_tries (m : bmap) k (f : V -> V * bool) n :
    match b_and_modify_t bor ask m k f n with
    | Returned m' _ _ => m' = b_and_modify bor cmp m k (fun v => fst (f v)) /\ (forall v, snd (b_get_mut bor cmp m (bor k) (fun v => fst (f v))) = Some v -> snd (f v) = true)
    | Unwound m' n' => (panicked ask n' /\ m' = m)
        \/ (m' = b_and_modify bor cmp m k (fun v => fst (f v)) /\ exists v, snd (b_get_mut bor cmp m (bor k) (fun v => fst (f v))) = Some v /\ snd (f v) = false)
    | Fault => False
    end.
  Proof.
    unfold b_and_modify_t, b_and_modify. pose proof (b_get_mut_tries m (bor k) (fun v => fst (f v)) n) as T.
    destruct (b_get_mut_t bor ask m (bor k) (fun v => fst (f v)) n) as [m' [v|] n1|m' n1|]; cbn [after tries] in *.
    - destruct T as [_ [= ->]]. cbn [fst snd]. destruct (snd (f v)) eqn:E.
      + split; auto. intros ? [= <-]. auto.
      + right. eauto.
    - destruct T as [_ [= ->]]. cbn [fst snd]. split; auto. discriminate.
    - destruct T as (_ & P & ->). auto.
    - discriminate.
  Qed.
  Lemma b_or_insert_t_tries (m : bmap) k f w n :
    match b_or_insert_t bor ask N m k f w n with
    | Returned m' x _ => match f with
        | Some v => b_or_insert bor cmp N m k v w = Ok (m', x)
        | None => b_contains_key bor cmp m (bor k) = true /\ b_get_mut bor cmp m (bor k) w = (m', Some x)
        end
    | Unwound m' n' => (f = None /\ b_contains_key bor cmp m (bor k) = false /\ m' = m)
        \/ (panicked ask n' /\ (m' = m \/ exists v o, f = Some v /\ b_contains_key bor cmp m (bor k) = false /\ b_insert bor cmp N m k v = Ok (m', o)))
    | Fault => match f with
        | Some v => b_or_insert bor cmp N m k v w = Panic
        | None => b_contains_key bor cmp m (bor k) = true /\ snd (b_get_mut bor cmp m (bor k) w) = None
        end
    end.
  Proof.
    unfold b_or_insert_t, b_or_insert, b_or_insert_with. pose proof (b_contains_tries m (bor k) n) as T.
    destruct (b_contains_t bor ask m (bor k) n) as [[] there n1|[] n1|]; cbn [after tries] in *; [|destruct T as (_ & P & _); auto|discriminate].
    destruct T as [_ [= ->]]. destruct there; cbn [negb after bind].
    - pose proof (b_get_mut_tries m (bor k) w n1) as T. destruct (b_get_mut_t bor ask m (bor k) w n1) as [m' o n2|m' n2|]; cbn [after tries] in *; [| |discriminate].
      + destruct T as [_ [= ->]]. destruct o as [x|]; cbn [unwrap bind plain]; destruct f; auto.
      + destruct T as (_ & P & ->). auto.
    - destruct f as [v|]; [|cbn [after]; auto]. pose proof (b_insert_tries m k v n1) as T.
      destruct (b_insert_t bor ask N m k v n1) as [m' o n2|m' n2|]; cbn [after tries] in *.
      + destruct T as [_ Ei]. rewrite Ei. cbn [bind]. pose proof (b_get_mut_tries m' (bor k) w n2) as T2.
        destruct (b_get_mut_t bor ask m' (bor k) w n2) as [m2 o2 n3|m2 n3|]; cbn [after tries] in *; [| |discriminate].
        * destruct T2 as [_ [= ->]]. destruct o2; reflexivity.
        * destruct T2 as (_ & P & ->). right. split; auto. right. exists v, o. auto.
      + destruct T as (_ & P & ->). auto.
      + now rewrite T.
  Qed.

  (** Calls that rebuild. *)
  Lemma b_append_tries un (a b : bmap) n :
    match b_append_t bor ask N un a b n with
    | Returned m _ _ => b_append bor cmp N un a b = Ok m
    | Unwound m n' => panicked ask n' /\ snd m = b_new
        /\ exists ps ps1 p ps2, b_into_list un b = Ok ps /\ ps = ps1 ++ p :: ps2 /\ b_extend bor cmp N a ps1 = Ok (fst m)
    | Fault => b_append bor cmp N un a b = Panic
    end.
  Proof.
    unfold b_append_t, b_append. destruct (b_into_list un b) as [ps|]; auto. cbn [bind].
    pose proof (b_extend_tries ps a n) as T. destruct (b_extend_t bor ask N a ps n) as [a' [] n1|a' n1|]; cbn [after].
    - rewrite T. reflexivity.
    - destruct T as (P & ps1 & p & ps2 & -> & E). split; auto. split; auto. exists (ps1 ++ p :: ps2), ps1, p, ps2. auto.
    - now rewrite T.
  Qed.
  Lemma retain_tries {S} (f : S -> K -> V -> S * V * option bool) ps : forall (acc : bmap) s n,
    match retain_t bor ask N f acc s ps n with
    | Returned _ (m', s') _ => b_extend bor cmp N acc (fst (retain_list (quiet f) s ps)) = Ok m' /\ snd (retain_list (quiet f) s ps) = s'
    | Unwound _ n' => panicked ask n' \/ exists s0 k v, In (k, v) ps /\ snd (f s0 k v) = None
    | Fault => b_extend bor cmp N acc (fst (retain_list (quiet f) s ps)) = Panic
    end.
  Proof.
    induction ps as [|[k v] ps IH]; intros acc s n; cbn [retain_t retain_list b_extend]; auto. unfold quiet at 1 3 5. destruct (f s k v) as [[s1 v1] [[|]|]] eqn:Ef.
    - pose proof (b_insert_tries acc k v1 n) as T. destruct (b_insert_t bor ask N acc k v1 n) as [m' r n1|m' n1|]; cbn [after tries] in *.
      + destruct T as [_ Ei]. specialize (IH m' s1 n1). destruct (retain_list (quiet f) s1 ps) as [rest s2]. cbn [fst snd b_extend] in *. rewrite Ei. cbn [bind].
        destruct (retain_t bor ask N f m' s1 ps n1) as [[] [m2 s3] n2|[] n2|]; auto. destruct IH as [P|(s0 & k0 & v0 & H & E)]; auto. right. exists s0, k0, v0. split; [now right|auto].
      + destruct T as (_ & P & _). auto.
      + destruct (retain_list (quiet f) s1 ps) as [rest s2]. cbn [fst b_extend]. now rewrite T.
    - specialize (IH acc s1 n). destruct (retain_list (quiet f) s1 ps) as [rest s2]. cbn [fst snd] in *.
      destruct (retain_t bor ask N f acc s1 ps n) as [[] [m2 s3] n2|[] n2|]; auto. destruct IH as [P|(s0 & k0 & v0 & H & E)]; auto. right. exists s0, k0, v0. split; [now right|auto].
    - right. exists s, k, v. split; [now left|]. now rewrite Ef.
  Qed.
  Lemma b_retain_tries {S} un (f : S -> K -> V -> S * V * option bool) (m : bmap) s n :
    match b_retain_t bor ask N un f m s n with
    | Returned m' s' _ => b_retain bor cmp N un (quiet f) m s = Ok (m', s')
    | Unwound m' n' => m' = b_new /\ (panicked ask n' \/ exists ps s0 k v, b_into_list un m = Ok ps /\ In (k, v) ps /\ snd (f s0 k v) = None)
    | Fault => b_retain bor cmp N un (quiet f) m s = Panic
    end.
  Proof.
    unfold b_retain_t, b_retain, b_from_iter. destruct (b_into_list un m) as [ps|]; auto. cbn [bind].
    pose proof (retain_tries f ps b_new s n) as T. destruct (retain_list (quiet f) s ps) as [qs s']. cbn [fst snd] in *.
    destruct (retain_t bor ask N f b_new s ps n) as [[] [m2 s3] n2|[] n2|]; cbn [after].
    - destruct T as [-> ->]. reflexivity.
    - split; auto. destruct T as [P|(s0 & k & v & H & E)]; auto. right. exists ps, s0, k, v. auto.
    - now rewrite T.
  Qed.
  Definition below q (e : entry) : bool := match cmp q (bor (fst e)) with Gt => true | _ => false end.
  Lemma part_tries q ps : forall (lo hi : bmap) n,
    match part_t bor ask N q lo hi ps n with
    | Returned _ (lo', hi') _ => b_extend bor cmp N lo (filter (below q) ps) = Ok lo' /\ b_extend bor cmp N hi (filter (fun e => negb (below q e)) ps) = Ok hi'
    | Unwound _ n' => panicked ask n'
    | Fault => b_extend bor cmp N lo (filter (below q) ps) = Panic \/ b_extend bor cmp N hi (filter (fun e => negb (below q e)) ps) = Panic
    end.
  Proof.
    induction ps as [|[k v] ps IH]; intros lo hi n; cbn [part_t filter b_extend]; auto. unfold question. destruct (ask n q (bor k)) as [c|] eqn:Eq; [|exists n, q, (bor k); auto].
    pose proof (A _ _ _ _ Eq) as Ec.
    assert (Hb : below q (k, v) = match c with Gt => true | _ => false end) by (unfold below; cbn [fst]; now rewrite <- Ec).
    rewrite Hb. clear Hb Ec Eq. destruct c; cbn [negb b_extend].
    1,2: pose proof (b_insert_tries hi k v (1 + n)) as T; destruct (b_insert_t bor ask N hi k v (1 + n)) as [m' r n1|m' n1|]; cbn [after tries] in *;
      [destruct T as [_ ->]; cbn [bind]; apply IH|destruct T as (_ & P & _); auto|rewrite T; auto].
    pose proof (b_insert_tries lo k v (1 + n)) as T; destruct (b_insert_t bor ask N lo k v (1 + n)) as [m' r n1|m' n1|]; cbn [after tries] in *;
      [destruct T as [_ ->]; cbn [bind]; apply IH|destruct T as (_ & P & _); auto|rewrite T; auto].
  Qed.
  Lemma b_split_off_tries un (m : bmap) q n :
    match b_split_off_t bor ask N un m q n with
    | Returned m' hi _ => b_split_off bor cmp N un m q = Ok (m', hi)
    | Unwound m' n' => m' = b_new /\ panicked ask n'
    | Fault => b_split_off bor cmp N un m q = Panic
    end.
  Proof.
    unfold b_split_off_t, b_split_off, b_from_iter. destruct (b_into_list un m) as [ps|]; auto. cbn [bind].
    pose proof (part_tries q ps b_new b_new n) as T.
    destruct (part_t bor ask N q b_new b_new ps n) as [[] [lo hi] n2|[] n2|]; cbn [after].
    - change ((m1 <- b_extend bor cmp N b_new (filter (below q) ps);; m2 <- b_extend bor cmp N b_new (filter (fun e => negb (below q e)) ps);; Ok (m1, m2)) = Ok (lo, hi)).
      destruct T as [-> T2]. cbn [bind]. rewrite T2. reflexivity.
    - auto.
    - change ((m1 <- b_extend bor cmp N b_new (filter (below q) ps);; m2 <- b_extend bor cmp N b_new (filter (fun e => negb (below q e)) ps);; Ok (m1, m2)) = Panic).
      destruct (b_extend bor cmp N b_new (filter (below q) ps)); cbn [bind]; auto. destruct T as [T|T]; [discriminate|]. now rewrite T.
  Qed.
End BTreeAsk.
