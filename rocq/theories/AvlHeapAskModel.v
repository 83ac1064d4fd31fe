(** [/repo/src/avl.rs] with the sharing of nodes (as in AvlHeapModel.v) and with comparisons that may panic or change
    their answers (as in AvlAskModel.v): the functions that compare keys. They take and return the number of comparisons
    made since the program started. A call ends with [Unwound] if a comparison or a [clone] panics. *)
From Coq Require Import List ZArith Bool.
From Verif Require Import Base Spec Heap AvlModel Ask AvlAskModel AvlHeapModel.
Import ListNotations.
Local Open Scope Z_scope.

(** A part that asks nothing. *)
Definition asked {S A} (n : nat) (x : res (S * A)) : res (S * nat * A) := '(s, o) <- x;; Ok (s, n, o).

Section AvlHeapAsk.
  Context {K V Q : Type} (bor : K -> Q) (ask : nat -> Q -> Q -> option comparison).
  Variable bomb : nat -> bool.
  Notation heap := (heap (pay K V)).
  Notation opn := (opn bomb).

  (** avl.rs:527-569 [ins]. [make_mut] (:538) comes before the comparison (:541). *)
  Fixpoint h_ins_t (fuel : nat) (h : heap) (root : ptr) (k : K) (v : V) (n : nat)
    : res (heap * ptr * nat * out (option V * bool)) :=
    match fuel with
    | O => Panic
    | S fuel' =>
      match root with
      | None =>
        let '(h1, a) := alloc h (Nd (Pay k v 0 0) [None; None]) in
        Ok (h1, Some a, n, Done (None, true))
      | Some rc =>
        '(h1, r1) <- opn h rc;;
        match r1 with
        | Unwound => Ok (h1, root, n, Unwound)
        | Done (a, d, l, r) =>
          match ask n (bor k) (bor (pk d)) with
          | None => Ok (cls h1 a d l r, Some a, S n, Unwound)
          | Some Eq => Ok (cls h1 a (Pay k v (plh d) (prh d)) l r, Some a, S n, Done (Some (pv d), false))
          | Some Lt =>
            '(h2, l', n2, o) <- h_ins_t fuel' h1 l k v (S n);;
            match o with
            | Unwound => Ok (cls h2 a d l' r, Some a, n2, Unwound)
            | Done (old, taller) =>
              asked n2 (
                lh' <- i8_add (plh d) (b2z taller);;
                let d' := set_lh d lh' in
                let h3 := cls h2 a d' l' r in
                if taller then
                  b <- bal lh' (prh d);;
                  if b <? -1 then
                    x <- h_rebal_lf_to_rt bomb h3 (Some a);;
                    Ok (then_ x (fun _ => (old, false)))
                  else Ok (h3, Some a, Done (old, b <? 0))
                else Ok (h3, Some a, Done (old, false)))
            end
          | Some Gt =>
            '(h2, r', n2, o) <- h_ins_t fuel' h1 r k v (S n);;
            match o with
            | Unwound => Ok (cls h2 a d l r', Some a, n2, Unwound)
            | Done (old, taller) =>
              asked n2 (
                rh' <- i8_add (prh d) (b2z taller);;
                let d' := set_rh d rh' in
                let h3 := cls h2 a d' l r' in
                if taller then
                  b <- bal (plh d) rh';;
                  if 1 <? b then
                    x <- h_rebal_rt_to_lf bomb h3 (Some a);;
                    Ok (then_ x (fun _ => (old, false)))
                  else Ok (h3, Some a, Done (old, 0 <? b))
                else Ok (h3, Some a, Done (old, false)))
            end
          end
        end
      end
    end.

  (** avl.rs:627-695 [rm]; [make_mut] (:635) before the comparison (:638). *)
  Fixpoint h_rm_t (fuel : nat) (h : heap) (root : ptr) (q : Q) (n : nat)
    : res (heap * ptr * nat * out (option (K * V) * bool)) :=
    match fuel with
    | O => Panic
    | S fuel' =>
      match root with
      | None => Ok (h, None, n, Done (None, false))
      | Some rc =>
        '(h1, r1) <- opn h rc;;
        match r1 with
        | Unwound => Ok (h1, root, n, Unwound)
        | Done (a, d, l, r) =>
          match ask n q (bor (pk d)) with
          | None => Ok (cls h1 a d l r, Some a, S n, Unwound)
          | Some Lt =>
            '(h2, l', n2, o) <- h_rm_t fuel' h1 l q (S n);;
            match o with
            | Unwound => Ok (cls h2 a d l' r, Some a, n2, Unwound)
            | Done (kv, shorter) =>
              asked n2 (x <- h_after_rm_left bomb h2 a d l' r shorter;; Ok (then_ x (fun s => (kv, s))))
            end
          | Some Gt =>
            '(h2, r', n2, o) <- h_rm_t fuel' h1 r q (S n);;
            match o with
            | Unwound => Ok (cls h2 a d l r', Some a, n2, Unwound)
            | Done (kv, shorter) =>
              asked n2 (x <- h_after_rm_right bomb h2 a d l r' shorter;; Ok (then_ x (fun s => (kv, s))))
            end
          | Some Eq =>
            asked (S n)
              match l, r with
              | None, None =>
                '(h2, d', _, _) <- h_take_node h1 a d l r;;
                Ok (h2, None, Done (Some (pk d', pv d'), true))
              | None, Some _ =>
                '(h2, d', _, r') <- h_take_node h1 a d l r;;
                Ok (h2, r', Done (Some (pk d', pv d'), true))
              | Some _, None =>
                '(h2, d', l', _) <- h_take_node h1 a d l r;;
                Ok (h2, l', Done (Some (pk d', pv d'), true))
              | Some _, Some _ =>
                '(h2, r', o) <- h_rm_leftmost bomb fuel' h1 r;;
                match o with
                | Unwound => Ok (cls h2 a d l r', Some a, Unwound)
                | Done (succ, shorter) =>
                  '(sk, sv) <- unwrap succ;;
                  x <- h_after_rm_right bomb h2 a (Pay sk sv (plh d) (prh d)) l r' shorter;;
                  Ok (then_ x (fun s => (Some (pk d, pv d), s)))
                end
              end
          end
        end
      end
    end.

  (** avl.rs:1116-1133 [get_mut] and the caller's write [w] through the reference. *)
  Fixpoint h_get_mut_t (fuel : nat) (h : heap) (root : ptr) (q : Q) (w : V -> V) (n : nat)
    : res (heap * ptr * nat * out (option V)) :=
    match fuel with
    | O => Panic
    | S fuel' =>
      match root with
      | None => Ok (h, None, n, Done None)
      | Some rc =>
        '(h1, r1) <- opn h rc;;
        match r1 with
        | Unwound => Ok (h1, root, n, Unwound)
        | Done (a, d, l, r) =>
          match ask n q (bor (pk d)) with
          | None => Ok (cls h1 a d l r, Some a, S n, Unwound)
          | Some Lt => '(h2, l', n2, o) <- h_get_mut_t fuel' h1 l q w (S n);; Ok (cls h2 a d l' r, Some a, n2, o)
          | Some Eq => Ok (cls h1 a (set_val d (w (pv d))) l r, Some a, S n, Done (Some (pv d)))
          | Some Gt => '(h2, r', n2, o) <- h_get_mut_t fuel' h1 r q w (S n);; Ok (cls h2 a d l r', Some a, n2, o)
          end
        end
      end
    end.

  (** avl.rs:946-979 [split]: it owns the node when it compares. *)
  Fixpoint h_split_t (fuel : nat) (h : heap) (root : ptr) (q : Q) (n : nat)
    : res (heap * nat * out (ptr * option (K * V) * ptr)) :=
    match fuel with
    | O => Panic
    | S fuel' =>
      match root with
      | None => Ok (h, n, Done (None, None, None))
      | Some rc =>
        '(h1, r1) <- unshare bomb h rc;;
        match r1 with
        | Unwound => Ok (h1, n, Unwound)
        | Done (d, l, r) =>
          match ask n q (bor (pk d)) with
          | None => asked (S n) (unwind h1 [l; r])
          | Some Eq => Ok (h1, S n, Done (l, Some (pk d, pv d), r))
          | Some Lt =>
            '(h2, n2, o) <- h_split_t fuel' h1 l q (S n);;
            asked n2
              match o with
              | Unwound => unwind h2 [r]
              | Done (l1, kv, r1) =>
                '(h3, o3) <- h_join bomb h2 r1 (pk d) (pv d) r;;
                match o3 with
                | Unwound => unwind h3 [l1]
                | Done r1' => Ok (h3, Done (l1, kv, r1'))
                end
              end
          | Some Gt =>
            '(h2, n2, o) <- h_split_t fuel' h1 r q (S n);;
            asked n2
              match o with
              | Unwound => unwind h2 [l]
              | Done (l1, kv, r1) =>
                '(h3, o3) <- h_join bomb h2 l (pk d) (pv d) l1;;
                match o3 with
                | Unwound => unwind h3 [r1]
                | Done l1' => Ok (h3, Done (l1', kv, r1))
                end
              end
          end
        end
      end
    end.

  (** avl.rs:835-885 [Merger::merge]. *)
  Fixpoint h_merge_t (keepl keepr : bool) (deconflict : K * V -> K * V -> option (K * V))
           (fuel : nat) (h : heap) (t1 t2 : ptr) (n : nat) : res (heap * nat * out ptr) :=
    match fuel with
    | O => Panic
    | S fuel' =>
      match t1, t2 with
      | None, _ => asked n (if keepr then Ok (h, Done t2) else h1 <- drop h t2;; Ok (h1, Done None))
      | _, None => asked n (if keepl then Ok (h, Done t1) else h1 <- drop h t1;; Ok (h1, Done None))
      | Some a1, Some _ =>
        '(h1, r1) <- unshare bomb h a1;;
        match r1 with
        | Unwound => asked n (unwind h1 [t2])
        | Done (d, l, r) =>
          '(h2, n2, o2) <- h_split_t depth h1 t2 (bor (pk d)) n;;
          match o2 with
          | Unwound => asked n2 (unwind h2 [l; r])
          | Done (t2_lt, t2_kv, t2_gt) =>
            '(h3, n3, o3) <- h_merge_t keepl keepr deconflict fuel' h2 l t2_lt n2;;
            match o3 with
            | Unwound => asked n3 (unwind h3 [t2_gt; r])
            | Done lf =>
              '(h4, n4, o4) <- h_merge_t keepl keepr deconflict fuel' h3 r t2_gt n3;;
              asked n4
                match o4 with
                | Unwound => unwind h4 [lf]
                | Done rt =>
                  let kv := match t2_kv with
                            | None => if keepl then Some (pk d, pv d) else None
                            | Some kv2 => deconflict (pk d, pv d) kv2
                            end in
                  h_join2 bomb h4 lf kv rt
                end
            end
          end
        end
      end
    end.
  (** avl.rs:887-942. *)
  Definition h_intersect_t := h_merge_t false false (fun lhs _ => Some lhs) depth.
  Definition h_diff_t := h_merge_t true false (fun _ _ => None) depth.
  Definition h_sym_diff_t := h_merge_t true true (fun _ _ => None) depth.
  Definition h_union_t := h_merge_t true true (fun _ rhs => Some rhs) depth.

  (** ** [AvlMap] *)

  (** avl.rs:1145-1153 [insert]: [len] is updated after [ins]. *)
  Definition hm_insert_t (h : heap) (m : hmap) (k : K) (v : V) (n : nat) : res (heap * hmap * nat * out (option V)) :=
    '(h1, p, n1, o) <- h_ins_t depth h (hm_root m) k v n;;
    match o with
    | Unwound => Ok (h1, HMap (hm_len m) p, n1, Unwound)
    | Done (ret, _) =>
      Ok (h1, HMap (hm_len m + match ret with None => 1 | Some _ => 0 end)%nat p, n1, Done ret)
    end.
  (** avl.rs:1732-1742 [remove_entry]; [remove] (:1711-1718) drops the key. *)
  Definition hm_remove_entry_t (h : heap) (m : hmap) (q : Q) (n : nat) : res (heap * hmap * nat * out (option (K * V))) :=
    '(h1, p, n1, o) <- h_rm_t depth h (hm_root m) q n;; asked n1 (hm_shrink m (h1, p, o)).
  (** avl.rs:1116-1133 [get_mut]. *)
  Definition hm_get_mut_t (h : heap) (m : hmap) (q : Q) (w : V -> V) (n : nat) : res (heap * hmap * nat * out (option V)) :=
    '(h1, p, n1, o) <- h_get_mut_t depth h (hm_root m) q w n;; Ok (h1, HMap (hm_len m) p, n1, o).
  (** avl.rs:1087-1103 [get_key_value]; it writes nothing, so that it follows the pointers and sees a tree. *)
  Definition hm_get_key_value_t (h : heap) (m : hmap) (q : Q) (n : nat) : res (nat * out (option (K * V))) :=
    a <- hm_read h m;;
    match t_get_t bor ask (am_root a) q n with
    | Returned _ r n1 => Ok (n1, Done r)
    | Ask.Unwound _ n1 => Ok (n1, Unwound)
    | Fault => Panic
    end.
  (** avl.rs:2286-2292 [extend]: one [insert] after the other. *)
  Fixpoint hm_extend_t (h : heap) (m : hmap) (ps : list (K * V)) (n : nat) : res (heap * hmap * nat * out unit) :=
    match ps with
    | [] => Ok (h, m, n, Done tt)
    | (k, v) :: ps' =>
      '(h1, m1, n1, o) <- hm_insert_t h m k v n;;
      match o with
      | Unwound => Ok (h1, m1, n1, Unwound)
      | Done _ => hm_extend_t h1 m1 ps' n1
      end
    end.
  (** avl.rs:998-1006 [append]: both roots are taken before [union] runs, the lengths are set after it. *)
  Definition hm_append_t (h : heap) (m1 m2 : hmap) (n : nat) : res (heap * hmap * hmap * nat * out unit) :=
    '(h1, n1, o) <- h_union_t h (hm_root m1) (hm_root m2) n;;
    match o with
    | Unwound => Ok (h1, HMap (hm_len m1) None, HMap (hm_len m2) None, n1, Unwound)
    | Done p => len <- h_len h1 p;; Ok (h1, HMap len p, HMap 0 None, n1, Done tt)
    end.
  (** avl.rs:1376-1384 [new_diff], :1399-1407 [new_intersect], :1459-1467 [new_sym_diff],
      :1483-1491 [new_union]: the arguments are moved in. *)
  Definition hm_of_root_t (x : res (heap * nat * out ptr)) : res (heap * nat * out hmap) :=
    '(h1, n1, o) <- x;;
    match o with
    | Unwound => Ok (h1, n1, Unwound)
    | Done p => len <- h_len h1 p;; Ok (h1, n1, Done (HMap len p))
    end.
  Definition hm_new_diff_t (h : heap) (m1 m2 : hmap) n := hm_of_root_t (h_diff_t h (hm_root m1) (hm_root m2) n).
  Definition hm_new_intersect_t (h : heap) (m1 m2 : hmap) n := hm_of_root_t (h_intersect_t h (hm_root m1) (hm_root m2) n).
  Definition hm_new_sym_diff_t (h : heap) (m1 m2 : hmap) n := hm_of_root_t (h_sym_diff_t h (hm_root m1) (hm_root m2) n).
  Definition hm_new_union_t (h : heap) (m1 m2 : hmap) n := hm_of_root_t (h_union_t h (hm_root m1) (hm_root m2) n).
End AvlHeapAsk.
