(** [/repo/src/btree.rs] with the sharing of nodes (as in BTreeHeapModel.v) and with comparisons that may panic or change
    their answers (as in BTreeAskModel.v): the functions that compare keys. They take and return the number of comparisons
    made since the program started. A call ends with [Unwound] if a comparison, a [clone] or a closure panics. *)
From Coq Require Import List PeanoNat Bool.
From Verif Require Import Base Spec Vec Heap BTreeModel BTreeIterModel Ask BTreeAskModel BTreeHeapModel.
Import ListNotations.
Local Open Scope nat_scope.

Section BTreeHeapAsk.
  Context {K V Q : Type} (bor : K -> Q) (ask : nat -> Q -> Q -> option comparison) (N : nat).
  Variable bomb : nat -> bool.
  Notation entry := (K * V)%type.
  Notation pay := (list (K * V)).
  Notation heap := (heap pay).
  Notation MIN_OCC := (MIN_OCC N).
  Notation MAX_OCC := (MAX_OCC N).
  Notation opn := (opn bomb).

  (** A part that asks nothing. *)
  Definition asked {S A} (n : nat) (x : res (S * A)) : res (S * nat * A) := '(s, o) <- x;; Ok (s, n, o).

  (** btree.rs:107-129 [Node::get_mut]: [make_mut] by the caller, then the scan. *)
  Fixpoint h_get_mut_t (fuel : nat) (h : heap) (a : addr) (q : Q) (w : V -> V) (n : nat)
    : res (heap * addr * nat * out (option entry)) :=
    match fuel with
    | O => Panic
    | S fuel' =>
      '(h1, r) <- opn h a;;
      match r with
      | Unwound => Ok (h1, a, n, Unwound)
      | Done (a', es, ks) =>
        match scan_t bor ask q es n with
        | Fault => Panic
        | Ask.Unwound _ n1 => Ok (cls h1 a' es ks, a', n1, Unwound)
        | Returned _ (i, c) n1 =>
          let below i :=
            match nth_error ks i with
            | None => Ok (cls h1 a' es ks, a', n1, Done None)
            | Some c => '(h2, c', n2, o) <- h_get_mut_t fuel' h1 c q w n1;; Ok (cls h2 a' es (set_at i c' ks), a', n2, o)
            end in
          match c with
          | Eq =>
            match nth_error es i with
            | Some e => Ok (cls h1 a' (set_at i (fst e, w (snd e)) es) ks, a', n1, Done (Some e))
            | None => Ok (cls h1 a' es ks, a', n1, Done None)
            end
          | Lt => below i
          | Gt => below (length ks - 1)
          end
        end
      end
    end.

  (** btree.rs:131-178 [Node::insert]. *)
  Fixpoint h_insert_t (fuel : nat) (h : heap) (a : addr) (k : K) (v : V) (n : nat)
    : res (heap * addr * nat * out (hins K V)) :=
    match fuel with
    | O => Panic
    | S fuel' =>
      '(h1, r) <- opn h a;;
      match r with
      | Unwound => Ok (h1, a, n, Unwound)
      | Done (a', es, ks) =>
        match scan_t bor ask (bor k) es n with
        | Fault => Panic
        | Ask.Unwound _ n1 => Ok (cls h1 a' es ks, a', n1, Unwound)
        | Returned _ (ub, Eq) n1 =>
          e <- unwrap (nth_error es ub);;
          Ok (cls h1 a' (set_at ub (k, v) es) ks, a', n1, Done (HReplaced (snd e)))
        | Returned _ (ub, _) n1 =>
          '(h2, ks1, n2, r) <- match nth_error ks ub with
                               | Some c => '(h2, c', n2, o) <- h_insert_t fuel' h1 c k v n1;; Ok (h2, set_at ub c' ks, n2, o)
                               | None => Ok (h1, ks, n1, Done (HSplit None k v))
                               end;;
          match r with
          | Unwound => Ok (cls h2 a' es ks1, a', n2, Unwound)
          | Done (HSplit child k1 v1) =>
            es1 <- vec_insert ub (k1, v1) es;;
            ks2 <- match child with Some rc => vec_insert ub rc ks1 | None => Ok ks1 end;;
            if length es1 <=? MAX_OCC then Ok (cls h2 a' es1 ks2, a', n2, Done HAbsorbed)
            else '(h3, s) <- h_split N h2 a' es1 ks2;; Ok (h3, a', n2, Done s)
          | Done s => Ok (cls h2 a' es ks1, a', n2, Done s)
          end
        end
      end
    end.

  (** btree.rs:493-543 [Node::remove]; [rebal] and [pop_last] ask nothing. *)
  Fixpoint h_remove_t (fuel : nat) (h : heap) (a : addr) (q : Q) (n : nat)
    : res (heap * addr * nat * out (option (entry * bool))) :=
    match fuel with
    | O => Panic
    | S fuel' =>
      '(h1, r) <- opn h a;;
      match r with
      | Unwound => Ok (h1, a, n, Unwound)
      | Done (a', es, ks) =>
        match scan_t bor ask q es n with
        | Fault => Panic
        | Ask.Unwound _ n1 => Ok (cls h1 a' es ks, a', n1, Unwound)
        | Returned _ (i, c) n1 =>
          let below i at_ :=
            match nth_error ks i with
            | None => Ok (cls h1 a' es ks, a', n1, Done None)
            | Some c =>
              '(h2, c', n2, o) <- h_remove_t fuel' h1 c q n1;;
              let ks1 := set_at i c' ks in
              match o with
              | Done (Some (kv, true)) => asked n2 (h_rebal_cls N bomb h2 a' es ks1 at_ kv)
              | _ => Ok (cls h2 a' es ks1, a', n2, o)
              end
            end in
          match c with
          | Lt => below i i
          | Gt => below (length ks - 1) (length es)
          | Eq =>
            asked n1 (
              if is_nil ks then
                '(kv, es') <- vec_remove i es;;
                Ok (cls h1 a' es' ks, a', Done (Some (kv, length es' <? MIN_OCC)))
              else
                c <- unwrap (nth_error ks i);;
                '(h2, c', o) <- h_pop_last N bomb fuel' h1 c;;
                let ks1 := set_at i c' ks in
                match o with
                | Unwound => Ok (cls h2 a' es ks1, a', Unwound)
                | Done ret =>
                  '(kv, under) <- unwrap ret;;
                  old <- unwrap (nth_error es i);;
                  let es1 := set_at i kv es in
                  if (under : bool) then h_rebal_cls N bomb h2 a' es1 ks1 i old
                  else Ok (cls h2 a' es1 ks1, a', Done (Some (old, false)))
                end)
          end
        end
      end
    end.

  (** ** [BTreeMap] *)

  (** A call that only reads follows the pointers and sees a tree: [f] is one of the lookups of BTreeAskModel.v. *)
  Definition h_look_t {A} (h : heap) (m : hbmap) (f : bt_map K V -> trial unit A) : res (nat * out A) :=
    b <- hb_read h m;;
    match f b with
    | Returned _ r n1 => Ok (n1, Done r)
    | Ask.Unwound _ n1 => Ok (n1, Unwound)
    | Fault => Panic
    end.
  (** btree.rs:566-591 [contains_key], :631-659 [get], [get_key_value]. *)
  Definition hb_contains_t (h : heap) (m : hbmap) (q : Q) (n : nat) := h_look_t h m (fun b => b_contains_t bor ask b q n).
  Definition hb_get_t (h : heap) (m : hbmap) (q : Q) (n : nat) := h_look_t h m (fun b => b_get_t bor ask b q n).
  Definition hb_get_key_value_t (h : heap) (m : hbmap) (q : Q) (n : nat) : res (nat * out (option entry)) :=
    h_look_t h m (fun b => match bm_root b with None => Returned tt None n | Some t => n_get_t bor ask q t n end).

  (** btree.rs:661-670 [get_mut]. *)
  Definition hb_get_mut_t (h : heap) (m : hbmap) (q : Q) (w : V -> V) (n : nat) : res (heap * hbmap * nat * out (option V)) :=
    match hb_root m with
    | None => Ok (h, m, n, Done None)
    | Some a =>
      '(h1, a1, n1, o) <- h_get_mut_t (depth h) h a q w n;;
      Ok (h1, HB (hb_len m) (Some a1), n1, match o with Done e => Done (option_map snd e) | Unwound => Unwound end)
    end.

  (** btree.rs:683-714 [insert]. *)
  Definition hb_insert_t (h : heap) (m : hbmap) (k : K) (v : V) (n : nat) : res (heap * hbmap * nat * out (option V)) :=
    match hb_root m with
    | Some a =>
      '(h1, a1, n1, o) <- h_insert_t (depth h) h a k v n;;
      match o with
      | Unwound => Ok (h1, HB (hb_len m) (Some a1), n1, Unwound)
      | Done (HReplaced old) => Ok (h1, HB (hb_len m) (Some a1), n1, Done (Some old))
      | Done (HSplit lhs k1 v1) =>
        l <- unwrap lhs;;
        let '(h2, r) := alloc h1 (Nd [(k1, v1)] [Some l; Some a1]) in
        Ok (h2, HB (hb_len m + 1) (Some r), n1, Done None)
      | Done HAbsorbed => Ok (h1, HB (hb_len m + 1) (Some a1), n1, Done None)
      end
    | None =>
      let '(h1, r) := alloc h (Nd [(k, v)] []) in
      Ok (h1, HB 1 (Some r), n, Done None)
    end.

  (** btree.rs:888-900 [remove], with [rm_and_rebal] (:819-837): [contains_key] first, then [Node::remove]. *)
  Definition hb_remove_t (h : heap) (m : hbmap) (q : Q) (n : nat) : res (heap * hbmap * nat * out (option V)) :=
    '(n1, there) <- hb_contains_t h m q n;;
    match there with
    | Unwound => Ok (h, m, n1, Unwound)
    | Done false => Ok (h, m, n1, Done None)
    | Done true =>
      match hb_root m with
      | None => Ok (h, m, n1, Done None)
      | Some a =>
        '(h1, a1, n2, o) <- h_remove_t (depth h) h a q n1;;
        match o with
        | Unwound => Ok (h1, HB (hb_len m) (Some a1), n2, Unwound)
        | Done None => Ok (h1, HB (hb_len m) (Some a1), n2, Done None)
        | Done (Some (old, under)) =>
          len <- usize_sub (hb_len m) 1;;
          '(h2, nd) <- take h1 a1;;
          let es := nd_data nd in
          let ks := olists (nd_kids nd) in
          if under && is_nil es then
            _ <- assert_ (length ks <=? 1);;
            let '(root, ks') := match vec_pop ks with Some (c, ks') => (Some c, ks') | None => (None, ks) end in
            h3 <- drop (cls h2 a1 es ks') (Some a1);;
            Ok (h3, HB len root, n2, Done (Some (snd old)))
          else Ok (cls h2 a1 es ks, HB len (Some a1), n2, Done (Some (snd old)))
        end
      end
    end.

  (** btree.rs:977-987 [extend] by a list; :1002-1012 [from_iter]. *)
  Fixpoint hb_extend_t (h : heap) (m : hbmap) (ps : list entry) (n : nat) : res (heap * hbmap * nat * out unit) :=
    match ps with
    | [] => Ok (h, m, n, Done tt)
    | (k, v) :: ps' =>
      '(h1, m1, n1, o) <- hb_insert_t h m k v n;;
      match o with
      | Unwound => Ok (h1, m1, n1, Unwound)
      | Done _ => hb_extend_t h1 m1 ps' n1
      end
    end.
  Definition hb_from_iter_t (h : heap) (ps : list entry) (n : nat) : res (heap * nat * out hbmap) :=
    '(h1, m, n1, o) <- hb_extend_t h hb_new ps n;;
    match o with
    | Unwound => h2 <- hb_drop h1 m;; Ok (h2, n1, Unwound)
    | Done _ => Ok (h1, n1, Done m)
    end.

  (** btree.rs:553-559 [append]: as [h_extend_iter]; the owning iterator asks nothing. *)
  Fixpoint h_extend_iter_t (fuel : nat) (h : heap) (m : hbmap) (it : h_iter (K := K) (V := V)) (n : nat)
    : res (heap * hbmap * nat * out unit) :=
    match fuel with
    | O => Panic
    | S fuel' =>
      '(h1, it1, o) <- h_next bomb h it;;
      match o with
      | Unwound => h2 <- hi_drop h1 it1;; Ok (h2, m, n, Unwound)
      | Done None => h2 <- hi_drop h1 it1;; Ok (h2, m, n, Done tt)
      | Done (Some (k, v)) =>
        '(h2, m2, n2, o2) <- hb_insert_t h1 m k v n;;
        match o2 with
        | Unwound => h3 <- hi_drop h2 it1;; Ok (h3, m2, n2, Unwound)
        | Done _ => h_extend_iter_t fuel' h2 m2 it1 n2
        end
      end
    end.
  Definition hb_append_t (h : heap) (m other : hbmap) (n : nat) : res (heap * hbmap * hbmap * nat * out unit) :=
    '(h1, it) <- hb_into_iter h other;;
    '(h2, m2, n2, o) <- h_extend_iter_t (S (hb_len other)) h1 m it n;;
    Ok (h2, m2, hb_new, n2, o).

  (** btree.rs:902-923 [retain]. *)
  Section Retain.
    Context {S' : Type} (f : S' -> K -> V -> S' * V * bool) (fbomb : S' -> K -> V -> bool).
    Fixpoint h_retain_iter_t (fuel : nat) (h : heap) (m : hbmap) (it : h_iter) (s : S') (n : nat)
      : res (heap * nat * out (hbmap * S')) :=
      match fuel with
      | O => Panic
      | S fuel' =>
        '(h1, it1, o) <- h_next bomb h it;;
        let bail h m n := (h1 <- hi_drop h it1;; h2 <- hb_drop h1 m;; Ok (h2, n, Unwound)) in
        match o with
        | Unwound => bail h1 m n
        | Done None => h2 <- hi_drop h1 it1;; Ok (h2, n, Done (m, s))
        | Done (Some (k, v)) =>
          if fbomb s k v then bail h1 m n
          else
            let '(s1, v1, keep) := f s k v in
            if (keep : bool) then
              '(h2, m2, n2, o2) <- hb_insert_t h1 m k v1 n;;
              match o2 with
              | Unwound => bail h2 m2 n2
              | Done _ => h_retain_iter_t fuel' h2 m2 it1 s1 n2
              end
            else h_retain_iter_t fuel' h1 m it1 s1 n
        end
      end.
    Definition hb_retain_t (h : heap) (m : hbmap) (s : S') (n : nat) : res (heap * hbmap * nat * out S') :=
      '(h1, it) <- hb_into_iter h m;;
      '(h2, n2, o) <- h_retain_iter_t (S (hb_len m)) h1 hb_new it s n;;
      match o with
      | Unwound => Ok (h2, hb_new, n2, Unwound)
      | Done (m', s') => Ok (h2, m', n2, Done s')
      end.
  End Retain.

  (** btree.rs:925-938 [split_off]: each item is compared with [q] and inserted into one of two new maps. *)
  Fixpoint h_partition_iter_t (fuel : nat) (h : heap) (m1 m2 : hbmap) (it : h_iter) (q : Q) (n : nat)
    : res (heap * nat * out (hbmap * hbmap)) :=
    match fuel with
    | O => Panic
    | S fuel' =>
      '(h1, it1, o) <- h_next bomb h it;;
      let bail h m1 m2 n :=
        (h1 <- hi_drop h it1;; h2 <- hb_drop h1 m1;; h3 <- hb_drop h2 m2;; Ok (h3, n, Unwound)) in
      match o with
      | Unwound => bail h1 m1 m2 n
      | Done None => h2 <- hi_drop h1 it1;; Ok (h2, n, Done (m1, m2))
      | Done (Some (k, v)) =>
        match ask n q (bor k) with
        | None => bail h1 m1 m2 (S n)
        | Some Gt =>
          '(h2, m1', n2, o2) <- hb_insert_t h1 m1 k v (S n);;
          match o2 with Unwound => bail h2 m1' m2 n2 | Done _ => h_partition_iter_t fuel' h2 m1' m2 it1 q n2 end
        | Some _ =>
          '(h2, m2', n2, o2) <- hb_insert_t h1 m2 k v (S n);;
          match o2 with Unwound => bail h2 m1 m2' n2 | Done _ => h_partition_iter_t fuel' h2 m1 m2' it1 q n2 end
        end
      end
    end.
  Definition hb_split_off_t (h : heap) (m : hbmap) (q : Q) (n : nat) : res (heap * hbmap * nat * out hbmap) :=
    '(h1, it) <- hb_into_iter h m;;
    '(h2, n2, o) <- h_partition_iter_t (S (hb_len m)) h1 hb_new hb_new it q n;;
    match o with
    | Unwound => Ok (h2, hb_new, n2, Unwound)
    | Done (m1, m2) => Ok (h2, m1, n2, Done m2)
    end.
End BTreeHeapAsk.
