(** How often [AvlMap::retain] calls [clone] (C69). The tree it builds consists of new nodes; so its joins clone nothing. *)
From Coq Require Import List ZArith Bool Lia Permutation.
From Verif Require Import Base Spec MapSpec Heap HeapProofs AvlModel AvlShows AvlHeapModel AvlHeapSpec AvlHeapHistModel AvlHeapHistSpec
  AvlHeapLazy AvlHeapProofs4 AvlHeapProofs6 SmallFacts.
Import ListNotations.
Local Open Scope nat_scope.

Section Fresh.
  Context {K V S : Type}.
  Variable bomb : nat -> bool.
  Variables (f : S -> K -> V -> S * V * bool) (fbomb : S -> K -> V -> bool).
  Notation pay := (pay K V).
  Notation heap := (heap pay).

  (** [calls s]: how often [f] was called. *)
  Variable calls : S -> nat.
  Hypothesis calls_f : forall s k v, calls (fst (fst (f s k v))) = Datatypes.S (calls s).

  (** Cells from [n0] on are new. *)
  Variable n0 : nat.
  Definition new (a : addr) : Prop := n0 <= a.
  Definition old (p : ptr) : Prop := forall b, In b (olist p) -> b < n0.
  Definition apart (h : heap) : Prop :=
    alone new h /\ forall a c n, a < n0 -> get h a = Some (c, n) -> forall b, In b (olists (nd_kids n)) -> b < n0.

  Lemma apart_put (h : heap) a c c' n : apart h -> a < n0 -> get h a = Some (c, n) -> apart (put h a (Some (c', n))).
  Proof.
    intros [[A1 A2] B] L G. pose proof (get_lt _ _ _ G) as La. split; [split|].
    - intros b Hb. rewrite cells_put in Hb. auto.
    - intros b d m Hb G'. rewrite get_put_other in G' by (unfold new in Hb; lia). eauto.
    - intros b d m Hb G'. rewrite get_put in G' by auto. destruct (Nat.eq_dec a b) as [<-|]; [|eauto].
      injection G' as <- <-. eauto.
  Qed.
  Lemma apart_none (h : heap) a : apart h -> a < n0 -> apart (put h a None).
  Proof.
    intros [[A1 A2] B] L. split; [split|].
    - intros b Hb. rewrite cells_put in Hb. auto.
    - intros b d m Hb G'. rewrite get_put_other in G' by (unfold new in Hb; lia). eauto.
    - intros b d m Hb G'. destruct (Nat.eq_dec a b) as [<-|N]; [|rewrite get_put_other in G' by auto; eauto].
      destruct (Nat.lt_ge_cases a (length (cells h))) as [La|La].
      + rewrite get_put_same in G' by auto. discriminate.
      + apply get_lt in G'. rewrite cells_put in G'. lia.
  Qed.
  Lemma apart_inc (h h1 : heap) p : apart h -> old p -> inc h p = Ok h1 -> apart h1 /\ clones h1 = clones h.
  Proof.
    intros A L E. destruct p as [a|]; cbn [inc] in E; [|injection E as <-; auto].
    destruct (get h a) as [[c n]|] eqn:G; [|discriminate]. injection E as <-. split; auto.
    eapply apart_put; eauto. apply L. now left.
  Qed.
  Lemma apart_drops fuel : forall (h h1 : heap) ps, apart h -> (forall p, In p ps -> old p) -> drops_fuel fuel h ps = Ok h1 ->
    apart h1 /\ clones h1 = clones h.
  Proof.
    induction fuel as [|fuel IH]; intros h h1 ps A L E; [discriminate|]. cbn [drops_fuel] in E.
    destruct ps as [|[a|] ps].
    - injection E as <-. auto.
    - assert (La : a < n0) by (apply (L (Some a) (or_introl eq_refl)); now left).
      destruct (get h a) as [[[|[|c]] n]|] eqn:G; try discriminate.
      + apply IH in E; [exact E|now apply apart_none|]. intros p Hp. apply in_app_or in Hp as [Hp|Hp]; [|apply L; now right].
        intros b Hb. eapply (proj2 A); eauto. apply in_flat_map. eauto.
      + apply IH in E; [exact E|eapply apart_put; eauto|]. intros p Hp. apply L. now right.
    - apply IH in E; auto. intros p Hp. apply L. now right.
  Qed.
  Lemma apart_drop (h h1 : heap) p : apart h -> old p -> drop h p = Ok h1 -> apart h1 /\ clones h1 = clones h.
  Proof. intros A L. apply apart_drops; auto. intros q [<-|[]]. exact L. Qed.
  Lemma apart_log (h : heap) d : apart h -> apart (log h d).
  Proof. intros A. exact A. Qed.
  Lemma apart_rd (h : heap) a d l r : apart h -> a < n0 -> rd h a = Ok (d, l, r) -> old l /\ old r.
  Proof.
    intros A L E. unfold rd in E. destruct (get h a) as [[c [d' [|l' [|r' [|]]]]]|] eqn:G; try discriminate. injection E as <- <- <-.
    pose proof (proj2 A a _ _ L G) as B. cbn in B. rewrite app_nil_r in B.
    split; intros b Hb; apply B, in_or_app; auto.
  Qed.
  Lemma apart_ok (h : heap) : apart h -> ok new (clones h) (get h) h.
  Proof. intros [A _]. split; auto. Qed.
  Lemma ok_apart (h h1 : heap) c : apart h -> ok new c (get h) h1 -> apart h1.
  Proof.
    intros [_ B] [A [_ G]]. split; auto. intros a c' n L E b Hb. rewrite G in E by (unfold new; lia). eauto.
  Qed.

  Definition built (h : heap) (s : S) (x : res (heap * out (ptr * nat * S))) : Prop :=
    match x with
    | Ok (h', Done (p', n, s')) => apart h' /\ pin new p' /\ length (clones h') + calls s = length (clones h) + calls s' + n
    | _ => True
    end.
  Lemma retain_built fuel : forall (h : heap) p s, apart h -> old p -> built h s (h_retain bomb f fbomb fuel h p s).
  Proof.
    induction fuel as [|fuel IH]; intros h p s A L; [exact I|]. cbn [h_retain]. destruct p as [a|].
    2:{ cbn. split; auto. split; [intros b []|lia]. }
    assert (La : a < n0) by (apply L; now left).
    destruct (rd h a) as [[[d0 l] r0]|] eqn:E0; cbn [bind]; [|exact I]. destruct (apart_rd _ _ _ _ _ A La E0) as [Ll _].
    destruct (inc h l) as [h1|] eqn:E1; cbn [bind]; [|exact I]. destruct (apart_inc _ _ _ A Ll E1) as [A1 C1].
    specialize (IH h1 l s A1 Ll) as B2. destruct (h_retain bomb f fbomb fuel h1 l s) as [[h2 [[[l' ll] s1]|]]|]; cbn [bind]; try exact I.
    2:{ unfold unwind. destruct (drops h2 _); exact I. }
    cbn in B2. destruct B2 as (A2 & P2 & N2).
    destruct (rd h2 a) as [[[d1 l1] r]|] eqn:E2; cbn [bind]; [|exact I]. destruct (apart_rd _ _ _ _ _ A2 La E2) as [_ Lr].
    destruct (inc h2 r) as [h3|] eqn:E3; cbn [bind]; [|exact I]. destruct (apart_inc _ _ _ A2 Lr E3) as [A3 C3].
    specialize (IH h3 r s1 A3 Lr) as B4. destruct (h_retain bomb f fbomb fuel h3 r s1) as [[h4 [[[r' rl] s2]|]]|]; cbn [bind]; try exact I.
    2:{ unfold unwind. destruct (drops h4 _); exact I. }
    cbn in B4. destruct B4 as (A4 & P4 & N4).
    destruct (rd h4 a) as [[[d l2] r2]|] eqn:E4; cbn [bind clone_field]; [|exact I].
    set (h5 := log h4 d). assert (A5 : apart h5) by exact (apart_log _ d A4).
    assert (C5 : length (clones h5) = Datatypes.S (length (clones h4))) by reflexivity.
    destruct (bomb (length (clones h4))).
    { unfold unwind. destruct (drops h5 _); exact I. }
    destruct (fbomb s2 (pk d) (pv d)).
    { unfold unwind. destruct (drops h5 _); exact I. }
    pose proof (calls_f s2 (pk d) (pv d)) as Cf. destruct (f s2 (pk d) (pv d)) as [[s3 v'] [|]]; cbn [fst] in Cf; cbn [clone_field].
    - set (h6 := log h5 d). assert (A6 : apart h6) by exact (apart_log _ d A5).
      assert (C6 : length (clones h6) = Datatypes.S (length (clones h5))) by reflexivity.
      destruct (bomb (length (clones h5))).
      { unfold unwind. destruct (drops h6 _); exact I. }
      pose proof (join_lone bomb new _ _ h6 l' (pk d) v' r' (apart_ok _ A6) P2 P4) as J.
      destruct (h_join bomb h6 l' (pk d) v' r') as [[h7 o7]|]; cbn [bind]; [|exact I]. cbn in J. destruct J as [J1 J2].
      destruct (drop h7 (Some a)) as [h8|] eqn:E8; cbn [bind]; [|exact I]. destruct o7 as [p7|]; [|destruct J2].
      destruct (apart_drop _ _ _ (ok_apart _ _ _ A6 J1) L E8) as [A8 C8].
      cbn. split; auto. split; auto. destruct J1 as (_ & J1 & _). rewrite C8, J1. rewrite C1, C3 in *. cbn [length] in *. lia.
    - pose proof (join2_lone bomb new _ _ h5 l' None r' (apart_ok _ A5) P2 P4) as J.
      destruct (h_join2 bomb h5 l' None r') as [[h7 o7]|]; cbn [bind]; [|exact I]. cbn in J. destruct J as [J1 J2].
      destruct (drop h7 (Some a)) as [h8|] eqn:E8; cbn [bind]; [|exact I]. destruct o7 as [p7|]; [|destruct J2].
      destruct (apart_drop _ _ _ (ok_apart _ _ _ A5 J1) L E8) as [A8 C8].
      cbn. split; auto. split; auto. destruct J1 as (_ & J1 & _). rewrite C8, J1. rewrite C1, C3 in *. cbn [length] in *. lia.
  Qed.
End Fresh.

(** The closure with a counter. *)
Section Counted.
  Context {K V S : Type}.
  Variable bomb : nat -> bool.
  Variables (f : S -> K -> V -> S * V * bool) (fbomb : S -> K -> V -> bool).
  Notation heap := (heap (pay K V)).
  Definition cf (s : nat * S) k v := let '(s1, v1, b) := f (snd s) k v in ((Datatypes.S (fst s), s1), v1, b).
  Definition cb (s : nat * S) k v := fbomb (snd s) k v.

  Definition alike (x : res (heap * out (ptr * nat * S))) (y : res (heap * out (ptr * nat * (nat * S)))) : Prop :=
    match x with
    | Panic => y = Panic
    | Ok (h, Unwound) => y = Ok (h, Unwound)
    | Ok (h, Done (p, n, s)) => exists c, y = Ok (h, Done (p, n, (c, s)))
    end.
  Lemma alike_unwind (h : heap) ps : alike (unwind h ps) (unwind h ps).
  Proof. unfold unwind. destruct (drops h ps); reflexivity. Qed.
  Lemma retain_alike fuel : forall (h : heap) p s c, alike (h_retain bomb f fbomb fuel h p s) (h_retain bomb cf cb fuel h p (c, s)).
  Proof.
    induction fuel as [|fuel IH]; intros h p s c; [reflexivity|]. cbn [h_retain]. destruct p as [a|]; [|cbn; eauto].
    destruct (rd h a) as [[[d0 l] r0]|]; cbn [bind]; [|reflexivity]. destruct (inc h l) as [h1|]; cbn [bind]; [|reflexivity].
    specialize (IH h1 l s c) as B. destruct (h_retain bomb f fbomb fuel h1 l s) as [[h2 [[[l' ll] s1]|]]|]; cbn [alike] in B.
    2:{ rewrite B. cbn [bind]. apply alike_unwind. }
    2:{ rewrite B. reflexivity. }
    destruct B as [c1 ->]. cbn [bind].
    destruct (rd h2 a) as [[[d1 l1] r]|]; cbn [bind]; [|reflexivity]. destruct (inc h2 r) as [h3|]; cbn [bind]; [|reflexivity].
    specialize (IH h3 r s1 c1) as B. destruct (h_retain bomb f fbomb fuel h3 r s1) as [[h4 [[[r' rl] s2]|]]|]; cbn [alike] in B.
    2:{ rewrite B. cbn [bind]. apply alike_unwind. }
    2:{ rewrite B. reflexivity. }
    destruct B as [c2 ->]. cbn [bind].
    destruct (rd h4 a) as [[[d l2] r2]|]; cbn [bind clone_field]; [|reflexivity].
    destruct (bomb (length (clones h4))); [apply alike_unwind|]. unfold cb at 1. cbn [snd].
    destruct (fbomb s2 (pk d) (pv d)); [apply alike_unwind|]. unfold cf at 1. cbn [fst snd].
    destruct (f s2 (pk d) (pv d)) as [[s3 v'] [|]]; cbn [clone_field].
    - destruct (bomb _); [apply alike_unwind|]. destruct (h_join bomb _ _ _ _ _) as [[h7 [t|]]|]; cbn [bind]; try reflexivity.
      + destruct (drop h7 _); cbn; eauto.
      + destruct (drop h7 _); cbn; eauto.
    - destruct (h_join2 bomb _ _ _ _) as [[h7 [t|]]|]; cbn [bind]; try reflexivity.
      + destruct (drop h7 _); cbn; eauto.
      + destruct (drop h7 _); cbn; eauto.
  Qed.
  Lemma calls_cf order : forall c s outs s', run_calls cf (c, s) order = (outs, s') -> fst s' = c + length order.
  Proof.
    induction order as [|[k v] order IH]; intros c s outs s' E; cbn [run_calls] in E; [injection E as <- <-; cbn; lia|].
    unfold cf at 1 in E. cbn [fst snd] in E. destruct (f s k v) as [[s1 v1] b].
    destruct (run_calls cf (Datatypes.S c, s1) order) as [outs1 s2] eqn:E1. injection E as <- <-.
    apply IH in E1. cbn [length]. lia.
  Qed.
End Counted.

Section Retain.
  Context {K V Q : Type} (bor : K -> Q) (cmp : Q -> Q -> comparison) (laws : order_laws cmp).
  Variable bomb : nat -> bool.
  Notation heap := (heap (pay K V)).
  Notation hshows := (hshows bor cmp).

  Lemma start_apart (h : heap) O : sound h O -> apart (length (cells h)) h.
  Proof.
    intros [W _]. split; [split|].
    - intros a L. exact L.
    - intros a c n L G. apply get_lt in G. unfold new in L. lia.
    - intros a c n _ G b Hb. destruct (live_of_wf h O b W) as (c' & n' & G' & _).
      { apply in_or_app. right. eapply ptrs_in; eauto. }
      eapply get_lt; eauto.
  Qed.
  Lemma hshows_len (h : heap) m l : hshows h m l -> hm_len m = length l.
  Proof.
    intros H. destruct (hshows_read bor cmp laws h m l H) as (a & _ & M & (_ & _ & Va) & <-). rewrite (proj1 M). exact Va.
  Qed.

  Lemma retain_opened {S} (f : S -> K -> V -> S * V * bool) fbomb (h : heap) m s h' m' s' :
    hm_retain bomb f fbomb h m s = Ok (h', m', Done s') ->
    exists fuel, fuel = depth /\ h_retain bomb f fbomb fuel h (hm_root m) s = Ok (h', Done (hm_root m', hm_len m', s')).
  Proof.
    intros E. exists depth. split; [reflexivity|].
    assert (X : forall x, h_retain bomb f fbomb depth h (hm_root m) s = x -> hm_retain bomb f fbomb h m s =
      bind x (fun '(h1, o) => match o with Unwound => Ok (h1, HMap (hm_len m) None, Unwound) | Done (p, n, s1) => Ok (h1, HMap n p, Done s1) end)).
    { intros x <-. unfold hm_retain. reflexivity. }
    specialize (X _ eq_refl). rewrite X in E. clear X. revert E. generalize (h_retain bomb f fbomb depth h (hm_root m) s). intros x E.
    destruct x as [[h1 [[[p n] s1]|]]|]; cbn [bind] in E; [|discriminate|discriminate]. injection E as <- <- <-. reflexivity.
  Qed.
  Lemma retain_closed {S} (f : S -> K -> V -> S * V * bool) fbomb (h : heap) m s h' p n s' fuel : fuel = depth ->
    h_retain bomb f fbomb fuel h (hm_root m) s = Ok (h', Done (p, n, s')) ->
    hm_retain bomb f fbomb h m s = Ok (h', HMap n p, Done s').
  Proof. intros -> E. unfold hm_retain. rewrite E. reflexivity. Qed.

  Lemma retain_clones {S} (f : S -> K -> V -> S * V * bool) fbomb (h : heap) m l s O h' m' s' :
    sound h (olist (hm_root m) ++ O) -> hshows h m l -> small l -> hm_retain bomb f fbomb h m s = Ok (h', m', Done s') ->
    exists l', hshows h' m' l' /\ length (clones h') = length (clones h) + length l + length l' /\ unshared h' (hm_root m').
  Proof.
    intros So H Sm E.
    destruct (retain_c bor cmp laws bomb (cf f) (cb fbomb) h m l (0, s) O So H Sm) as (h1 & m1 & o & E1 & So1 & F1 & R).
    destruct (retain_opened _ _ _ _ _ _ _ _ E) as (fuel & D & E2). clear E.
    pose proof (retain_alike bomb f fbomb fuel h (hm_root m) s 0) as Al. rewrite E2 in Al. destruct Al as [c Al].
    rewrite (retain_closed _ _ _ _ _ _ _ _ _ _ D Al) in E1. clear D. injection E1 as <- <- <-.
    destruct m' as [n p]. cbn [hm_root hm_len] in *.
    destruct R as (l' & order & outs & H' & Po & Ro & _). exists l'. split; auto.
    pose proof (start_apart _ _ So) as A0.
    pose proof (retain_built bomb (cf f) (cb fbomb) fst) as B. specialize (B ltac:(intros [c1 s1] k v; unfold cf; cbn [fst snd]; destruct (f s1 k v) as [[? ?] ?]; reflexivity)).
    specialize (B (length (cells h)) fuel h (hm_root m) (0, s) A0).
    rewrite Al in B. cbn [built fst] in B. destruct B as (A2 & P2 & N2).
    { intros b Hb. destruct So as [W _]. destruct (live_of_wf h _ b W) as (c' & n' & G' & _).
      - apply in_or_app. left. apply in_or_app. now left.
      - eapply get_lt; eauto. }
    apply calls_cf in Ro. cbn [fst] in Ro. apply Permutation_length in Po.
    pose proof (hshows_len _ _ _ H') as L'. split.
    - cbn [hm_len] in L'. lia.
    - exact (proj1 (pin_reach _ _ _ _ _ (apart_ok _ _ A2) P2)).
  Qed.
End Retain.
