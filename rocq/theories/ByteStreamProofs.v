(** Composition of the contracts of ByteStream.v. *)
From Verif Require Import Base ByteStream.
From Coq Require Import ZifyBool ZifyNat.

Lemma bat_fun : forall s p1 r1 p2 r2, bat s p1 r1 -> bat s p2 r2 -> p1 = p2 /\ r1 = r2.
Proof.
  intros s p1 r1 p2 r2 [M1 C1] [M2 C2]. assert (length p1 = length p2) by lia.
  rewrite M1 in M2. now apply app_inj_tail_iff || (apply app_eq_app in M2; destruct M2 as [l [[-> ->]|[-> ->]]];
    rewrite app_length in H; destruct l; cbn in *; try lia; rewrite !app_nil_r; auto).
Qed.

Lemma puts_ret : forall A (a : A), puts (bret (Some a)) a [].
Proof.
  intros A a s pre old rest H L R. destruct old; [|discriminate L]. exists s. rewrite app_nil_r. cbn in H. repeat split; apply H.
Qed.
Lemma puts_bind : forall A C (f : B (option A)) (k : A -> B (option C)) a b x y,
  puts f a x -> puts (k a) b y -> puts (do? r := f in k r) b (x ++ y).
Proof.
  intros A C f k a b x y F K s pre old rest H L R. rewrite app_length in L, R.
  destruct (F s pre (firstn (length x) old) (skipn (length x) old ++ rest)) as (s1 & E1 & B1 & S1 & W1).
  - now rewrite app_assoc, firstn_skipn.
  - rewrite firstn_length. lia.
  - lia.
  - destruct (K s1 (pre ++ x) (skipn (length x) old) rest) as (s2 & E2 & B2 & S2 & W2).
    + exact B1.
    + rewrite skipn_length. lia.
    + rewrite app_length. lia.
    + exists s2. unfold bopt, bbind. rewrite E1. rewrite app_assoc. repeat split; try congruence; apply B2.
Qed.
Lemma puts_lift : forall A C (o : outcome A) (k : A -> B (option C)) a b y,
  o = Ok a -> puts (k a) b y -> puts (do* r := blift o in k r) b y.
Proof. intros A C o k a b y -> K s pre old rest. unfold bbind, blift. now apply K. Qed.

Lemma gets_ret : forall A (a : A), gets (bret (Some a)) a [].
Proof. intros A a s pre rest F H L. exists s. rewrite app_nil_r. repeat split; try apply H. Qed.
Lemma gets_bind : forall A C (f : B (option A)) (k : A -> B (option C)) a b x y,
  gets f a x -> gets (k a) b y -> gets (do? r := f in k r) b (x ++ y).
Proof.
  intros A C f k a b x y F K s pre rest HB H R. rewrite app_length in R. rewrite <- app_assoc in H.
  destruct (F s pre (y ++ rest) HB H) as (s1 & E1 & B1 & S1 & W1 & M1); [lia|].
  destruct (K s1 (pre ++ x) rest ltac:(now rewrite M1) B1) as (s2 & E2 & B2 & S2 & W2 & M2); [rewrite app_length; lia|].
  exists s2. unfold bopt, bbind. rewrite E1. rewrite app_assoc. repeat split; try congruence; apply B2.
Qed.
Lemma gets_bind0 : forall A C (f : B (option A)) (k : A -> B (option C)) a b x,
  gets f a x -> gets (k a) b [] -> gets (do? r := f in k r) b x.
Proof. intros. rewrite <- (app_nil_r x). eapply gets_bind; eassumption. Qed.
Lemma gets_lift : forall A C (o : outcome A) (k : A -> B (option C)) a b y,
  o = Ok a -> gets (k a) b y -> gets (do* r := blift o in k r) b y.
Proof. intros A C o k a b y -> K s pre rest. unfold bbind, blift. now apply K. Qed.

Lemma bat_self : forall s, 0 <= cur s <= Z.of_nat (length (mem s)) ->
  bat s (firstn (Z.to_nat (cur s)) (mem s)) (skipn (Z.to_nat (cur s)) (mem s)).
Proof. intros s H. split; [now rewrite firstn_skipn|]. rewrite firstn_length. lia. Qed.

Lemma accepts_ret : forall A (a : A) (P : A -> list Z -> Prop), P a [] -> accepts (bret (Some a)) P.
Proof.
  intros A a P H s x s' F L E. inversion E; subst. pose proof (bat_self _ L) as S. destruct s' as [m n c w]. cbn in *.
  exists (firstn (Z.to_nat c) m), [], (skipn (Z.to_nat c) m).
  split; [exact S|split; [exact H|split; [f_equal; cbn; lia|easy]]].
Qed.
Lemma accepts_none : forall A (P : A -> list Z -> Prop), accepts (bret None) P.
Proof. intros A P s x s' F L E. discriminate E. Qed.
Lemma accepts_bind : forall A C (f : B (option A)) (k : A -> B (option C)) P Q,
  accepts f P -> (forall a x, P a x -> accepts (k a) (Q a)) ->
  accepts (do? r := f in k r) (fun b bs => exists a x y, bs = x ++ y /\ P a x /\ Q a b y).
Proof.
  intros A C f k P Q F K s b s' M L E. unfold bopt, bbind in E.
  destruct (f s) as [[[a|] s1]| | |] eqn:E1; try discriminate.
  destruct (F s a s1 M L E1) as (pre & x & rest & B1 & Px & -> & N1).
  assert (length (mem s) = length pre + length x + length rest)%nat as LM.
  { destruct B1 as [-> _]. rewrite !app_length. lia. }
  assert (cur s = Z.of_nat (length pre)) as LC by apply B1.
  edestruct (K a x Px) as (pre2 & y & rest2 & B2 & Qy & E3 & N2); [| |exact E|].
  - exact M.
  - cbn. lia.
  - cbn in *.
    assert (pre2 = pre ++ x /\ y ++ rest2 = rest) as [-> <-].
    { eapply bat_fun; [exact B2|]. split; cbn; [|rewrite app_length; lia]. destruct B1 as [-> _]. now rewrite app_assoc. }
    exists pre, (x ++ y), rest2. split; [now rewrite <- app_assoc|]. split; [exists a, x, y; auto|]. split.
    + rewrite E3. f_equal. rewrite app_length. lia.
    + intros NE. rewrite E3 in *. cbn in *. destruct y as [|y0 y]; [|apply N2; discriminate].
      destruct x as [|x0 x]; [now elim NE|]. rewrite Z.add_0_r. apply N1. discriminate.
Qed.
Lemma accepts_weaken : forall A (f : B (option A)) (P Q : A -> list Z -> Prop),
  accepts f P -> (forall a bs, P a bs -> Q a bs) -> accepts f Q.
Proof.
  intros A f P Q F I s a s' M L E. destruct (F s a s' M L E) as (pre & bs & rest & H1 & H2 & H3).
  exists pre, bs, rest. auto.
Qed.
Lemma accepts_lift : forall A C (o : outcome A) (k : A -> B (option C)) P,
  (forall a, o = Ok a -> accepts (k a) P) -> accepts (do* r := blift o in k r) P.
Proof.
  intros A C o k P K s b s' M L E. unfold bbind, blift in E. destruct o as [a| | |]; try discriminate.
  exact (K a eq_refl s b s' M L E).
Qed.
Lemma accepts_UB : forall A (P : A -> list Z -> Prop), accepts (blift UB) P.
Proof. intros A P s a s' M L E. discriminate E. Qed.

Lemma guarded_ret : forall A (a : A) (P : A -> Prop), P a -> guarded (bret (Some a)) P.
Proof. intros A a P H s W. exists (Some a), s. destruct W as (W1 & W2 & W3). repeat split; auto; lia. Qed.
Lemma guarded_none : forall A (P : A -> Prop), guarded (bret None) P.
Proof. intros A P s W. exists None, s. destruct W as (W1 & W2 & W3). repeat split; auto; lia. Qed.
Lemma guarded_bind : forall A C (f : B (option A)) (k : A -> B (option C)) P Q,
  guarded f P -> (forall a, P a -> guarded (k a) Q) -> guarded (do? r := f in k r) Q.
Proof.
  intros A C f k P Q F K s W. destruct (F s W) as (r & s1 & E1 & M1 & S1 & G1 & C1 & H1).
  unfold bopt, bbind. rewrite E1. destruct r as [a|]; [|exists None, s1; repeat split; auto; lia].
  destruct (K a H1 s1) as (r2 & s2 & E2 & M2 & S2 & G2 & C2 & H2).
  - destruct W as (W1 & W2 & W3). unfold bwf. rewrite M1, S1. repeat split; auto; lia.
  - exists r2, s2. rewrite M2, S2, G2. repeat split; auto; lia.
Qed.
Lemma guarded_lift : forall A C (o : outcome A) (k : A -> B (option C)) P a,
  o = Ok a -> guarded (k a) P -> guarded (do* r := blift o in k r) P.
Proof. intros A C o k P a -> K s W. unfold bbind, blift. now apply K. Qed.
Lemma guarded_weaken : forall A (f : B (option A)) (P Q : A -> Prop),
  guarded f P -> (forall a, P a -> Q a) -> guarded f Q.
Proof.
  intros A f P Q F I s W. destruct (F s W) as (r & s1 & E1 & M1 & S1 & G1 & C1 & H1).
  exists r, s1. repeat split; auto; try lia. destruct r; auto.
Qed.

Lemma bounded_ret : forall A (a : option A), bounded (bret a).
Proof. intros A a s W. exists a, s. destruct W as (W1 & W2 & W3). repeat split; auto; lia. Qed.
Lemma bounded_bind : forall A C (f : B (option A)) (k : A -> B (option C)),
  bounded f -> (forall a, bounded (k a)) -> bounded (do? r := f in k r).
Proof.
  intros A C f k F K s W. destruct (F s W) as (r & s1 & E1 & S1 & C1 & L1 & B1 & P1 & T1).
  unfold bopt, bbind. rewrite E1. destruct r as [a|]; [|exists None, s1; repeat split; auto; lia].
  destruct (K a s1) as (r2 & s2 & E2 & S2 & C2 & L2 & B2 & P2 & T2).
  - destruct W as (W1 & W2 & W3). unfold bwf. rewrite L1, S1. repeat split; auto; lia.
  - exists r2, s2. rewrite S1 in *. repeat split; auto; try lia; try congruence.
    rewrite <- P1. assert (Z.to_nat (cur s) = Nat.min (Z.to_nat (cur s)) (Z.to_nat (cur s1))) as -> by lia.
    rewrite <- !firstn_firstn. now rewrite P2.
Qed.
Lemma bounded_lift : forall A C (o : outcome A) (k : A -> B (option C)) a,
  o = Ok a -> bounded (k a) -> bounded (do* r := blift o in k r).
Proof. intros A C o k a -> K s W. unfold bbind, blift. now apply K. Qed.
