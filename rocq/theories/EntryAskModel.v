(** [/repo/src/lib.rs], the entry API of [trait Map], on maps that share nodes, with comparisons that may panic. As in Rust
    it is written once for every map: the functions of the trait are arguments. [H]: heaps, [M]: maps. A call takes and
    returns the number of comparisons made since the program started, and gives [None] if it unwinds. *)
From Coq Require Import List PeanoNat Bool.
From Verif Require Import Base Spec.
Import ListNotations.

Section Entry.
  Context {H M K V Q : Type} (bor : K -> Q).
  (** lib.rs:208-226 [contains_key_], [get_mut_]; :228-235 [insert_]. *)
  Context (contains : H -> M -> Q -> nat -> res (nat * option bool)).
  Context (get_mut : H -> M -> Q -> (V -> V) -> nat -> res (H * M * nat * option (option V))).
  Context (insert : H -> M -> K -> V -> nat -> res (H * M * nat * option (option V))).

  (** lib.rs:260-271 [and_modify]. The closure writes [fst (f v)] to the value [v]; it then returns, or panics if [snd (f v)]
      is false. *)
  Definition e_and_modify (h : H) (m : M) (k : K) (f : V -> V * bool) (n : nat) : res (H * M * nat * option unit) :=
    '(h1, m1, n1, o) <- get_mut h m (bor k) (fun v => fst (f v)) n;;
    Ok (h1, m1, n1, match o with
                    | Some (Some v) => if snd (f v) then Some tt else None
                    | Some None => Some tt
                    | None => None
                    end).

  (** lib.rs:277-287 [or_aux], which [or_default], [or_insert] and [or_insert_with] (:289-314) call, and :316-329
      [or_insert_with_key]. [f] is what the closure returns; it is [None] if the closure or the clone of the key panics
      (both run before [insert_]). Then the caller writes [w] of the value through the reference. [get_mut_(..).unwrap()]
      panics if nothing is found; the caller of [or_insert] sees that as a call that unwinds. *)
  Definition e_or_insert (h : H) (m : M) (k : K) (f : option V) (w : V -> V) (n : nat) : res (H * M * nat * option V) :=
    '(n1, o) <- contains h m (bor k) n;;
    match o with
    | None => Ok (h, m, n1, None)
    | Some there =>
      '(h1, m1, n2, o1) <- (if (there : bool) then Ok (h, m, n1, Some tt) else
                            match f with
                            | None => Ok (h, m, n1, None)
                            | Some v => '(h1, m1, n2, o) <- insert h m k v n1;; Ok (h1, m1, n2, option_map (fun _ => tt) o)
                            end);;
      match o1 with
      | None => Ok (h1, m1, n2, None)
      | Some _ =>
        '(h2, m2, n3, o2) <- get_mut h1 m1 (bor k) w n2;;
        Ok (h2, m2, n3, match o2 with Some (Some v) => Some v | _ => None end)
      end
    end.
End Entry.
