(** [/repo/src/btree/core.rs] and [fixed.rs] with comparisons that may panic or change their answers (see Ask.v): the
    functions of [FixedModel] that compare keys. *)
From Coq Require Import List PeanoNat Bool.
From Verif Require Import Base Spec Vec FixedModel Ask.
Import ListNotations.

Section FixedAsk.
  Context {K V Q : Type} (bor : K -> Q) (ask : nat -> Q -> Q -> option comparison) (small_key : bool).
  Notation fnode := (fnode K V).
  Notation fmap := (f_map K V).
  Notation entry := (K * V)%type.

  (** core.rs:74-82: the linear search. *)
  Fixpoint lin_t (q : Q) (ks : list K) (i n : nat) : trial unit (nat + nat) :=
    match ks with
    | [] => Returned tt (inr i) n
    | k :: ks' =>
      question ask n q (bor k) tt (fun c n =>
      match c with
      | Lt => Returned tt (inr i) n
      | Eq => Returned tt (inl i) n
      | Gt => lin_t q ks' (S i) n
      end)
    end.
  (** [slice::binary_search_by] of the standard library. *)
  Fixpoint bin_t (fuel : nat) (q : Q) (ks : list K) (left right n : nat) : trial unit (nat + nat) :=
    if left <? right then
      match fuel with
      | O => Fault
      | S fuel' =>
        let mid := left + Nat.div2 (right - left) in
        match nth_error ks mid with
        | None => Fault
        | Some k =>
          question ask n (bor k) q tt (fun c n =>
          match c with
          | Eq => Returned tt (inl mid) n
          | Lt => bin_t fuel' q ks (mid + 1) right n
          | Gt => bin_t fuel' q ks left mid n
          end)
        end
      end
    else Returned tt (inr left) n.
  (** core.rs:66-87 [search_keys]. *)
  Definition search_t (q : Q) (e : elems K V) (n : nat) : trial unit (nat + nat) :=
    match live (el_keys e) (el_len e) with
    | Panic => Fault
    | Ok ks => if small_key then lin_t q ks 0 n else bin_t (length ks) q ks 0 (length ks) n
    end.

  (** core.rs:367-377 [Node::get]. *)
  Fixpoint fn_get_t (q : Q) (x : fnode) (n : nat) : trial unit (option entry) :=
    match x with
    | FNode e d =>
      after (search_t q e n) (fun _ => tt) (fun _ r n =>
      match r with
      | inl i => plain (kv <- el_get e i;; Ok (tt, Some kv)) n
      | inr i =>
        match fchild (on_kids (fn_get_t q) d) i with
        | Panic => Fault
        | Ok (Some f) => f n
        | Ok None => Returned tt None n
        end
      end)
    end.

  (** core.rs:379-389 [Node::get_mut]. *)
  Fixpoint fn_get_mut_t (q : Q) (w : V -> V) (x : fnode) (n : nat) : trial fnode (option V) :=
    match x with
    | FNode e d =>
      after (search_t q e n) (fun _ => x) (fun _ r n =>
      match r with
      | inl i =>
        plain (
          vs <- live (el_vals e) (el_len e);;
          v <- unwrap (nth_error vs i);;
          Ok (FNode (Elems (el_keys e) (set_at i (Some (w v)) (el_vals e)) (el_len e)) d, Some v)) n
      | inr i =>
        match fchild (on_kids (fn_get_mut_t q w) d) i with
        | Panic => Fault
        | Ok (Some f) => after (f n) (fun c' => FNode e (fput d i c')) (fun c' r n => Returned (FNode e (fput d i c')) r n)
        | Ok None => Returned x None n
        end
      end)
    end.

  (** core.rs:391-424 [Node::insert]: the arrays are touched after the search and after the call for the child. *)
  Fixpoint fn_insert_t (kv : entry) (x : fnode) (n : nat) : trial fnode (f_res K V) :=
    match x with
    | FNode e d =>
      after (search_t (bor (fst kv)) e n) (fun _ => x) (fun _ r n =>
      match r with
      | inl ub => plain ('(old, e') <- el_replace e ub kv;; Ok (FNode e' d, FReplaced (fst old) (snd old))) n
      | inr ub =>
        match fchild (on_kids (fn_insert_t kv) d) ub with
        | Panic => Fault
        | Ok c =>
          after (match c with
                 | Some f => after (f n) (fun c' => FNode e (fput d ub c')) (fun c' r n => Returned (FNode e (fput d ub c')) r n)
                 | None => Returned x (FSplit None kv) n
                 end) (fun x' => x') (fun n1 r n =>
          plain
            match r with
            | FSplit kid kv1 =>
              if fn_len n1 <? MAX_OCCUPANCY then ins_no_split n1 ub kid kv1 else ins_split n1 ub kid kv1
            | _ => Ok (n1, r)
            end n)
        end
      end)
    end.

  (** core.rs:695-732 [Node::remove]; [pop_greatest] and [rebal] ask nothing. *)
  Fixpoint fn_remove_t (q : Q) (x : fnode) (n : nat) : trial fnode (option (entry * bool)) :=
    match x with
    | FNode e d =>
      after (search_t q e n) (fun _ => x) (fun _ r n =>
      match r with
      | inl i =>
        plain
          match d with
          | None =>
            '(old, e') <- el_remove e i;;
            Ok (FNode e' None, Some (old, el_len e' <? MIN_OCCUPANCY))
          | Some _ =>
            c <- fchild (on_kids fn_pop_greatest d) i;;
            m <- unwrap c;;
            '(c', (kv, under)) <- m;;
            '(old, e') <- el_replace e i kv;;
            let n1 := FNode e' (fput d i c') in
            if (under : bool) then '(n2, u) <- f_rebal n1 i;; Ok (n2, Some (old, u))
            else Ok (n1, Some (old, false))
          end n
      | inr i =>
        match fchild (on_kids (fn_remove_t q) d) i with
        | Panic => Fault
        | Ok None => Returned x None n
        | Ok (Some f) =>
          after (f n) (fun c' => FNode e (fput d i c')) (fun c' o n =>
          plain (
            let n1 := FNode e (fput d i c') in
            match o with
            | None => Ok (n1, None)
            | Some (kv, true) => '(n2, u) <- f_rebal n1 i;; Ok (n2, Some (kv, u))
            | Some (kv, false) => Ok (n1, Some (kv, false))
            end) n)
        end
      end)
    end.

  (** ** fixed.rs *)

  (** fixed.rs:22-29 [get], :31-40 [get_mut]. *)
  Definition f_get_t (m : fmap) (q : Q) (n : nat) : trial unit (option V) :=
    match fm_root m with
    | None => Returned tt None n
    | Some x => after (fn_get_t q x n) (fun _ => tt) (fun _ o n => Returned tt (option_map snd o) n)
    end.
  Definition f_get_mut_t (m : fmap) (q : Q) (w : V -> V) (n : nat) : trial fmap (option V) :=
    match fm_root m with
    | None => Returned m None n
    | Some x => after (fn_get_mut_t q w x n) (fun x' => FMap (Some x') (fm_len m))
                  (fun x' o n => Returned (FMap (Some x') (fm_len m)) o n)
    end.
  (** fixed.rs:42-73 [insert]. *)
  Definition f_insert_t (m : fmap) (k : K) (v : V) (n : nat) : trial fmap (option V) :=
    match fm_root m with
    | Some x =>
      after (fn_insert_t (k, v) x n) (fun x' => FMap (Some x') (fm_len m)) (fun x' r n =>
      plain
        match r with
        | FAbsorbed => Ok (FMap (Some x') (fm_len m + 1), None)
        | FReplaced _ old => Ok (FMap (Some x') (fm_len m), Some old)
        | FSplit lt kv =>
          lt <- unwrap lt;;
          b <- fn_branch lt kv x';;
          Ok (FMap (Some b) (fm_len m + 1), None)
        end n)
    | None => plain (x <- fn_leaf (k, v);; Ok (FMap (Some x) 1, None)) n
    end.
  (** fixed.rs:102-133 [rm_and_rebal], [remove]. *)
  Definition f_remove_t (m : fmap) (q : Q) (n : nat) : trial fmap (option V) :=
    match fm_root m with
    | None => Returned m None n
    | Some x =>
      after (fn_remove_t q x n) (fun x' => FMap (Some x') (fm_len m)) (fun x' o n =>
      plain
        match o with
        | None => Ok (FMap (Some x') (fm_len m), None)
        | Some (kv, under) =>
          len <- usize_sub (fm_len m) 1;;
          root <- (if under && fn_is_empty x' then fn_pop_child x' else Ok (Some x'));;
          Ok (FMap root len, Some (snd kv))
        end n)
    end.
  (** fixed.rs:157-179 [extend], [from_iter]. *)
  Fixpoint f_extend_t (m : fmap) (ps : list entry) (n : nat) : trial fmap unit :=
    match ps with
    | [] => Returned m tt n
    | (k, v) :: ps' => after (f_insert_t m k v n) (fun m' => m') (fun m' _ n => f_extend_t m' ps' n)
    end.
  Definition f_from_iter_t (ps : list entry) (n : nat) : trial unit fmap :=
    after (f_extend_t f_new ps n) (fun _ => tt) (fun m _ n => Returned tt m n).
End FixedAsk.
