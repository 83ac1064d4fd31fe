(** Results that may panic, checked machine integers and total orders.
    Nothing here is specific to the modelled crate. *)
From Coq Require Import List ZArith Lia Bool.
Import ListNotations.
Open Scope Z_scope.

(** ** Panics

    A Rust function that may panic (failed [unwrap], [assert!], [panic!], slice
    index out of range, integer overflow) is modelled as a function into [res]. *)
Inductive res (A : Type) : Type :=
| Ok (a : A)
| Panic.
Arguments Ok {A} a.
Arguments Panic {A}.

Definition bind {A B} (m : res A) (f : A -> res B) : res B :=
  match m with Ok a => f a | Panic => Panic end.

Notation "x <- m ;; k" := (bind m (fun x => k))
  (at level 61, m at next level, right associativity).
Notation "' p <- m ;; k" := (bind m (fun x => match x with p => k end))
  (at level 61, p pattern, m at next level, right associativity).

(** [Option::unwrap]. *)
Definition unwrap {A} (o : option A) : res A :=
  match o with Some a => Ok a | None => Panic end.

(** [assert!]. *)
Definition assert_ (b : bool) : res unit := if b then Ok tt else Panic.

(** ** [i8] arithmetic, overflow is a panic (as in a build with overflow checks).
    Theorems that show the absence of panics therefore also show that a build
    without overflow checks computes the same values. *)
Definition i8_chk (z : Z) : res Z :=
  if (-128 <=? z) && (z <=? 127) then Ok z else Panic.
Definition i8_add (a b : Z) : res Z := i8_chk (a + b).
Definition i8_sub (a b : Z) : res Z := i8_chk (a - b).

Lemma i8_chk_ok z : -128 <= z <= 127 -> i8_chk z = Ok z.
Proof.
  intros H. unfold i8_chk.
  destruct (Z.leb_spec (-128) z), (Z.leb_spec z 127); cbn; auto; lia.
Qed.

Lemma i8_add_ok a b : -128 <= a + b <= 127 -> i8_add a b = Ok (a + b).
Proof. apply i8_chk_ok. Qed.
Lemma i8_sub_ok a b : -128 <= a - b <= 127 -> i8_sub a b = Ok (a - b).
Proof. apply i8_chk_ok. Qed.

(** [usize] subtraction; going below zero is a panic. *)
Definition usize_sub (a b : nat) : res nat :=
  if (b <=? a)%nat then Ok (a - b)%nat else Panic.

Lemma usize_sub_ok a b : (b <= a)%nat -> usize_sub a b = Ok (a - b)%nat.
Proof.
  intros H. unfold usize_sub. destruct (Nat.leb_spec b a); auto; lia.
Qed.

(** ** Total orders

    [Ord::cmp] of a type is a function into [comparison]. The laws of a total
    (pre)order; [Eq] need not be Leibniz equality. *)
Record order_laws {Q : Type} (cmp : Q -> Q -> comparison) : Prop := {
  cmp_opp : forall x y, cmp y x = CompOpp (cmp x y);
  cmp_lt_trans : forall x y z, cmp x y = Lt -> cmp y z = Lt -> cmp x z = Lt;
  cmp_eq_l : forall x y z, cmp x y = Eq -> cmp x z = cmp y z;
}.

Section OrderFacts.
  Context {Q : Type} {cmp : Q -> Q -> comparison} (laws : order_laws cmp).

  Lemma cmp_refl x : cmp x x = Eq.
  Proof.
    pose proof (cmp_opp _ laws x x) as H. destruct (cmp x x); cbn in *; congruence.
  Qed.

  Lemma cmp_eq_sym x y : cmp x y = Eq -> cmp y x = Eq.
  Proof. intros H. rewrite (cmp_opp _ laws x y), H. reflexivity. Qed.

  Lemma cmp_lt_gt x y : cmp x y = Lt <-> cmp y x = Gt.
  Proof.
    rewrite (cmp_opp _ laws x y). destruct (cmp x y); cbn; split; congruence.
  Qed.

  Lemma cmp_gt_lt x y : cmp x y = Gt <-> cmp y x = Lt.
  Proof. symmetry. apply cmp_lt_gt. Qed.

  Lemma cmp_eq_r x y z : cmp x y = Eq -> cmp z x = cmp z y.
  Proof.
    intros H. rewrite (cmp_opp _ laws x z), (cmp_opp _ laws y z).
    now rewrite (cmp_eq_l _ laws x y z H).
  Qed.

  Lemma cmp_gt_trans x y z : cmp x y = Gt -> cmp y z = Gt -> cmp x z = Gt.
  Proof.
    rewrite !cmp_gt_lt. intros H1 H2. eapply (cmp_lt_trans _ laws); eauto.
  Qed.

  Lemma cmp_eq_trans x y z : cmp x y = Eq -> cmp y z = Eq -> cmp x z = Eq.
  Proof. intros H1 H2. now rewrite (cmp_eq_l _ laws x y z H1). Qed.

  Lemma cmp_lt_irrefl x : cmp x x <> Lt.
  Proof. rewrite cmp_refl. discriminate. Qed.

  Lemma cmp_lt_eq x y z : cmp x y = Lt -> cmp y z = Eq -> cmp x z = Lt.
  Proof. intros H1 H2. now rewrite <- (cmp_eq_r y z x H2). Qed.

  Lemma cmp_eq_lt x y z : cmp x y = Eq -> cmp y z = Lt -> cmp x z = Lt.
  Proof. intros H1 H2. now rewrite (cmp_eq_l _ laws x y z H1). Qed.
End OrderFacts.

(** Example order: the integers. *)
Lemma Zcmp_laws : order_laws Z.compare.
Proof.
  split.
  - intros x y. apply Z.compare_antisym.
  - intros x y z. rewrite !Z.compare_lt_iff. lia.
  - intros x y z H. apply Z.compare_eq_iff in H. now subst.
Qed.

(** A preorder in which different keys may be equal: compare by first component. *)
Lemma fst_cmp_laws {A} : order_laws (fun (x y : Z * A) => Z.compare (fst x) (fst y)).
Proof.
  split.
  - intros x y. apply Z.compare_antisym.
  - intros x y z. rewrite !Z.compare_lt_iff. lia.
  - intros x y z H. apply Z.compare_eq_iff in H. now rewrite H.
Qed.

(** ** Lists *)
Section ListFacts.
  Context {A : Type}.

  Lemma filter_all (f : A -> bool) l :
    (forall x, In x l -> f x = true) -> filter f l = l.
  Proof.
    induction l as [|a l IH]; cbn; intros H; [reflexivity|].
    rewrite (H a (or_introl eq_refl)), IH; auto.
  Qed.

  Lemma filter_none (f : A -> bool) l :
    (forall x, In x l -> f x = false) -> filter f l = [].
  Proof.
    induction l as [|a l IH]; cbn; intros H; [reflexivity|].
    rewrite (H a (or_introl eq_refl)). apply IH. auto.
  Qed.

  Lemma filter_ext_in' (f g : A -> bool) l :
    (forall x, In x l -> f x = g x) -> filter f l = filter g l.
  Proof.
    induction l as [|a l IH]; cbn; intros H; [reflexivity|].
    rewrite (H a (or_introl eq_refl)), IH; auto.
  Qed.

  Lemma filter_filter (f g : A -> bool) l :
    filter f (filter g l) = filter (fun x => g x && f x) l.
  Proof.
    induction l as [|a l IH]; cbn; [reflexivity|].
    destruct (g a); cbn; rewrite IH; reflexivity.
  Qed.

  Lemma find_app (f : A -> bool) l1 l2 :
    find f (l1 ++ l2) = match find f l1 with Some x => Some x | None => find f l2 end.
  Proof.
    induction l1 as [|a l IH]; cbn; [reflexivity|]. destruct (f a); auto.
  Qed.

  Lemma find_none_all (f : A -> bool) l :
    (forall x, In x l -> f x = false) -> find f l = None.
  Proof.
    induction l as [|a l IH]; cbn; intros H; [reflexivity|].
    rewrite (H a (or_introl eq_refl)). apply IH. auto.
  Qed.
End ListFacts.
