(** The XER decoders on any bytes. *)
From Verif Require Import Base Bits BitsProofs ByteStream ByteStreamProofs XerSpec Xer XerProofs XerProofs2 XerProofs3 XerProofs4.
From Coq Require Import ZifyBool ZifyNat.
Ltac Zify.zify_post_hook ::= Z.div_mod_to_equations.

Section Safe.
Variables (L : libc) (M : list Z) (N : Z).
Hypothesis HB : Forall is_byte M.
Hypothesis HC : Forall (fun b => char_ok L b = true) M.
Hypothesis HN : N <= Z.of_nat (length M).

Definition good (s : bytes_) : Prop := mem s = M /\ size s = N /\ 0 <= cur s <= N + 1.
Definition calm {A} (f : B A) (P : A -> Prop) : Prop :=
  forall s, good s -> exists r s', f s = Ok (r, s') /\ good s' /\ ws s' = ws s /\ P r.
Definition any {A} (_ : A) : Prop := True.
Definition opt {A} (P : A -> Prop) (r : option A) : Prop := match r with Some a => P a | None => True end.

Lemma calm_ret : forall A (a : A) (P : A -> Prop), P a -> calm (bret a) P.
Proof. intros A a P H s G. exists a, s. split; [reflexivity|]. split; [exact G|]. split; [reflexivity|exact H]. Qed.
Lemma calm_bind : forall A C (f : B A) (k : A -> B C) P Q, calm f P -> (forall a, P a -> calm (k a) Q) -> calm (bbind f k) Q.
Proof.
  intros A C f k P Q Hf Hk s G. destruct (Hf s G) as (r & s1 & E & G1 & W & Pr). destruct (Hk r Pr s1 G1) as (r2 & s2 & E2 & G2 & W2 & P2).
  exists r2, s2. unfold bbind. rewrite E. split; [exact E2|]. split; [exact G2|]. split; [congruence|exact P2].
Qed.
Lemma calm_opt : forall A C (f : B (option A)) (k : A -> B (option C)) P Q, calm f (opt P) -> (forall a, P a -> calm (k a) (opt Q)) -> calm (bopt f k) (opt Q).
Proof. intros A C f k P Q Hf Hk. eapply calm_bind; [exact Hf|]. intros [a|] Pa; [apply Hk, Pa|]. now apply calm_ret. Qed.
Lemma calm_weak : forall A (f : B A) (P Q : A -> Prop), calm f P -> (forall a, P a -> Q a) -> calm f Q.
Proof. intros A f P Q H I s G. destruct (H s G) as (r & s' & E & G' & W & Pr). exists r, s'. auto. Qed.
Lemma calm_lift : forall A C (m : outcome A) a (k : A -> B C) Q, m = Ok a -> calm (k a) Q -> calm (bbind (blift m) k) Q.
Proof. intros A C m a k Q -> H. exact H. Qed.
Lemma calm_get : forall A (k : bytes_ -> B A) Q, (forall s, good s -> calm (k s) Q) -> calm (bbind bget k) Q.
Proof. intros A k Q H s G. exact (H s G s G). Qed.
(** Looking ahead *)
Lemma calm_back : forall A C (f : B A) (k : A -> C) P, calm f P ->
  calm (do* s := bget in do* r := f in do* _ := bseek (cur s) in bret (k r)) (fun c => exists a, P a /\ c = k a).
Proof.
  intros A C f k P H s G. destruct (H s G) as (r & s1 & E & G1 & W & Pr). exists (k r), (seek s1 (cur s)).
  unfold bbind, bget, bseek, bret. rewrite E. split; [reflexivity|]. split; [|split; [exact W|eauto]].
  destruct G as (? & ? & ?), G1 as (? & ? & ?). repeat split; cbn; try assumption; lia.
Qed.

Lemma brd_in : forall s i, good s -> 0 <= i < N -> exists b, brd i s = Ok (b, s) /\ In b M.
Proof.
  intros s i (E & _ & _) I. unfold brd. rewrite E. replace i with (Z.of_nat (Z.to_nat i)) by lia. rewrite nthZ_nat by lia.
  eexists. split; [reflexivity|]. apply nth_In. lia.
Qed.
Lemma brd_is_in : forall s i v, good s -> 0 <= i < N -> exists b, brd_is i v s = Ok (b, s).
Proof. intros s i v G I. destruct (brd_in s i G I) as (b & E & _). exists (b =? v). unfold brd_is, bbind. rewrite E. reflexivity. Qed.
Lemma good_seek : forall s i, good s -> 0 <= i <= N + 1 -> good (seek s i).
Proof. intros s i (A & C & D) I. split; [exact A|]. split; [exact C|exact I]. Qed.

Lemma skip_loop_safe : forall go lo, (forall i s, good s -> lo <= i < N -> 0 <= i -> exists b, go i s = Ok (b, s)) ->
  forall fuel s, good s -> lo <= cur s -> N - cur s < Z.of_nat fuel -> (0 < fuel)%nat -> exists s', skip_loop fuel go s = Ok (tt, s') /\ good s' /\ ws s' = ws s /\
    cur s <= cur s' /\ (cur s' <= N \/ s' = s).
Proof.
  intros go lo Hgo. induction fuel as [|f IH]; intros s G Lo F F0; cbn [skip_loop].
  - lia.
  - pose proof G as (_ & GS & GC). unfold bbind at 1. unfold bget. destruct (cur s >=? size s) eqn:E.
    + exists s. split; [reflexivity|]. split; [exact G|]. split; [reflexivity|]. split; [lia|right; reflexivity].
    + destruct (Hgo (cur s) s G ltac:(lia) ltac:(lia)) as (b & Eb). unfold bbind at 1. rewrite Eb. destruct b.
      * unfold bbind at 1. unfold bseek. change (mkby (mem s) (size s) (cur s + 1) (ws s)) with (seek s (cur s + 1)).
        destruct (IH (seek s (cur s + 1)) (good_seek s (cur s + 1) G ltac:(lia)) ltac:(cbn; lia) ltac:(cbn [seek cur]; lia) ltac:(lia)) as (s' & E' & G' & W' & C' & D').
        exists s'. split; [exact E'|]. split; [exact G'|]. split; [exact W'|]. cbn [seek cur] in C'. split; [lia|].
        left. destruct D' as [D'| ->]; [exact D'|cbn; lia].
      * exists s. split; [reflexivity|]. split; [exact G|]. split; [reflexivity|]. split; [lia|right; reflexivity].
Qed.
Lemma skip_while_safe : forall go lo s, (forall i s, good s -> lo <= i < N -> 0 <= i -> exists b, go i s = Ok (b, s)) ->
  good s -> lo <= cur s -> exists s', skip_while go s = Ok (tt, s') /\ good s' /\ ws s' = ws s /\
    cur s <= cur s' /\ (cur s' <= N \/ s' = s).
Proof.
  intros go lo s H G Lo. unfold skip_while, bbind, bget. eapply skip_loop_safe; [exact H|exact G|exact Lo| |lia].
  destruct G as (_ & GS & GC). lia.
Qed.
Lemma skip_space_safe : calm skip_space any.
Proof.
  intros s G. destruct (skip_while_safe (fun i => do* b := brd i in bret (isspace b)) 0 s) as (s' & E & G' & W & _).
  - intros i s0 G0 I I0. destruct (brd_in s0 i G0 ltac:(lia)) as (b & E & _). exists (isspace b). unfold bbind. now rewrite E.
  - exact G.
  - destruct G as (_ & _ & ?). lia.
  - exists tt, s'. repeat split; try assumption; destruct G' as (? & ? & ?); assumption || lia.
Qed.
Ltac done G := eexists _, _; split; [reflexivity|]; split; [exact G|]; split; [reflexivity|exact I].
Lemma skip_header_safe : calm skip_header any.
Proof.
  intros s G. pose proof G as (GM & GS & GC). unfold skip_header. unfold bbind at 1, bget.
  destruct (negb (cur s + 1 <? size s)) eqn:E; [done G|].
  destruct (brd_is_in s (cur s) 60 G ltac:(lia)) as (a & Ea). unfold bbind at 1. rewrite Ea. destruct a; cbn [negb]; [|done G].
  destruct (brd_is_in s (cur s + 1) 63 G ltac:(lia)) as (b & Eb). unfold bbind at 1. rewrite Eb. destruct b; cbn [negb]; [|done G].
  unfold bbind at 1. unfold bseek at 1. change (mkby (mem s) (size s) (cur s + 1) (ws s)) with (seek s (cur s + 1)).
  match goal with |- context [skip_while ?g] => destruct (skip_while_safe g 1 (seek s (cur s + 1))) as (s1 & E1 & G1 & W1 & C1 & D1) end.
  - intros i s0 G0 I I0. destruct (brd_is_in s0 (i - 1) 63 G0 ltac:(lia)) as (x & Ex). unfold bbind at 1. rewrite Ex. destruct x; [|eexists; reflexivity].
    destruct (brd_is_in s0 i 62 G0 ltac:(lia)) as (y & Ey). unfold bbind at 1. rewrite Ey. eexists; reflexivity.
  - apply good_seek; [exact G|lia].
  - cbn. lia.
  - unfold bbind at 1. rewrite E1. unfold bbind at 1. unfold bbind at 1. unfold bseek.
    change (mkby (mem s1) (size s1) (cur s1 + 1) (ws s1)) with (seek s1 (cur s1 + 1)).
    destruct (skip_space_safe (seek s1 (cur s1 + 1))) as (r & s2 & E2 & G2 & W2 & _).
    + apply good_seek; [exact G1|]. destruct D1 as [D1| ->]; [|cbn]; pose proof G1 as (_ & _ & ?); try lia. 
    + exists r, s2. split; [exact E2|]. split; [exact G2|]. split; [cbn [seek ws] in *; congruence|exact I].
Qed.
Lemma skip_comment_safe : calm skip_comment any.
Proof.
  intros s G. pose proof G as (GM & GS & GC). unfold skip_comment. unfold bbind at 1, bget.
  destruct (negb (cur s + 3 <? size s)) eqn:E; [done G|].
  destruct (brd_is_in s (cur s) 60 G ltac:(lia)) as (a & Ea). unfold bbind at 1. rewrite Ea. destruct a; cbn [negb]; [|done G].
  destruct (brd_is_in s (cur s + 1) 33 G ltac:(lia)) as (b & Eb). unfold bbind at 1. rewrite Eb. destruct b; cbn [negb]; [|done G].
  destruct (brd_is_in s (cur s + 2) 45 G ltac:(lia)) as (c & Ec). unfold bbind at 1. rewrite Ec. destruct c; cbn [negb]; [|done G].
  destruct (brd_is_in s (cur s + 3) 45 G ltac:(lia)) as (d & Ed). unfold bbind at 1. rewrite Ed. destruct d; cbn [negb]; [|done G].
  unfold bbind at 1. unfold bseek at 1. change (mkby (mem s) (size s) (cur s + 2) (ws s)) with (seek s (cur s + 2)).
  match goal with |- context [skip_while ?g] => destruct (skip_while_safe g 2 (seek s (cur s + 2))) as (s1 & E1 & G1 & W1 & C1 & D1) end.
  - intros i s0 G0 I I0. destruct (brd_is_in s0 (i - 2) 45 G0 ltac:(lia)) as (x & Ex). unfold bbind at 1. rewrite Ex. destruct x; cbn [negb]; [|eexists; reflexivity].
    destruct (brd_is_in s0 (i - 1) 45 G0 ltac:(lia)) as (y & Ey). unfold bbind at 1. rewrite Ey. destruct y; cbn [negb]; [|eexists; reflexivity].
    destruct (brd_is_in s0 i 62 G0 ltac:(lia)) as (z & Ez). unfold bbind at 1. rewrite Ez. eexists; reflexivity.
  - apply good_seek; [exact G|lia].
  - cbn. lia.
  - unfold bbind at 1. rewrite E1. unfold bbind at 1. unfold bbind at 1. unfold bseek.
    change (mkby (mem s1) (size s1) (cur s1 + 1) (ws s1)) with (seek s1 (cur s1 + 1)).
    destruct (skip_space_safe (seek s1 (cur s1 + 1))) as (r & s2 & E2 & G2 & W2 & _).
    + apply good_seek; [exact G1|]. destruct D1 as [D1| ->]; [|cbn]; pose proof G1 as (_ & _ & ?); try lia. 
    + exists r, s2. split; [exact E2|]. split; [exact G2|]. split; [cbn [seek ws] in *; congruence|exact I].
Qed.
Lemma read_word_safe : forall n, calm (read_word L n) any.
Proof.
  induction n as [|n IH]; intros s G; pose proof G as (GM & GS & GC); cbn [read_word]; unfold bbind at 1, bget;
    (destruct (cur s >=? size s) eqn:E; [done G|]);
    destruct (brd_in s (cur s) G ltac:(lia)) as (c & Ec & Ic); unfold bbind at 1; rewrite Ec;
    unfold isPartOfID; rewrite (proj1 (Forall_forall _ _) HC c Ic); unfold bbind at 1; unfold blift.
  - done G.
  - match goal with |- context [if ?p then _ else _] => destruct p end; [|done G].
    unfold bbind at 1. unfold bseek. change (mkby (mem s) (size s) (cur s + 1) (ws s)) with (seek s (cur s + 1)).
    destruct (IH (seek s (cur s + 1)) (good_seek s (cur s + 1) G ltac:(lia))) as (r & s' & E' & G' & W' & _).
    unfold bbind at 1. rewrite E'. eexists _, _. split; [reflexivity|]. split; [exact G'|]. split; [exact W'|exact I].
Qed.
Definition tok_ok (t : token) : Prop := In (fst t) M \/ fst t = 0 \/ fst t = WORD_ID.
Lemma NT_safe : calm (NT L) tok_ok.
Proof.
  assert (Z0 : tok_ok (0, [])) by (right; left; reflexivity).
  unfold NT. eapply calm_bind; [apply skip_space_safe|]. intros _ _. apply calm_get. intros s1 _.
  destruct (cur s1 >=? size s1); [apply calm_ret, Z0|].
  eapply calm_bind; [apply skip_header_safe|]. intros _ _. apply calm_get. intros s2 _.
  destruct (cur s2 >=? size s2); [apply calm_ret, Z0|].
  eapply calm_bind; [apply skip_comment_safe|]. intros _ _ s G. unfold bbind at 1, bget. pose proof G as (GM & GS & GC).
  destruct (cur s >=? size s) eqn:E; [eexists _, _; split; [reflexivity|]; auto|].
  destruct (brd_in s (cur s) G ltac:(lia)) as (b & Eb & Ib). unfold bbind at 1. rewrite Eb.
  destruct (is_special b).
  - unfold bbind, bseek, bret. change (mkby (mem s) (size s) (cur s + 1) (ws s)) with (seek s (cur s + 1)).
    eexists _, _. split; [reflexivity|]. split; [apply good_seek; [exact G|lia]|]. split; [reflexivity|]. left. exact Ib.
  - destruct (read_word_safe 99 s G) as (w & s' & E' & G' & W' & _). unfold bbind. rewrite E'. eexists _, _. split; [reflexivity|].
    split; [exact G'|]. split; [exact W'|]. right. destruct w; [left|right]; reflexivity.
Qed.
Lemma expect_safe : forall d, calm (expect L d) (opt (fun _ => In d M \/ d = 0 \/ d = WORD_ID)).
Proof.
  intros d. eapply calm_bind; [apply NT_safe|]. intros t T. apply calm_ret. destruct (fst t =? d) eqn:E; cbn; [|exact I].
  unfold tok_ok in T. replace (fst t) with d in T by lia. exact T.
Qed.
Lemma expect_word_safe : forall v, calm (expect_word L v) (opt any).
Proof. intros v. eapply calm_bind; [apply NT_safe|]. intros t _. apply calm_ret. destruct (is_word t v); exact I. Qed.
Lemma calm_expect : forall A d (k : unit -> B (option A)) Q, (In d M \/ d = 0 \/ d = WORD_ID -> calm (k tt) (opt Q)) ->
  calm (bopt (expect L d) k) (opt Q).
Proof. intros A d k Q H. eapply calm_opt; [apply expect_safe|]. intros [] D. exact (H D). Qed.
Lemma calm_word : forall A v (k : unit -> B (option A)) Q, calm (k tt) (opt Q) -> calm (bopt (expect_word L v) k) (opt Q).
Proof. intros A v k Q H. eapply calm_opt; [apply expect_word_safe|]. intros [] _. exact H. Qed.

(** The text of an element comes from the memory and is shorter than maxLen. *)
Definition text_ok (max : Z) (t : list Z) : Prop := Forall (fun b => In b M) t /\ Z.of_nat (length t) < max.
Lemma read_text_safe : forall fuel room s, good s -> N - cur s < Z.of_nat fuel -> (0 < fuel)%nat -> 0 <= room -> exists r s',
  read_text fuel room s = Ok (r, s') /\ good s' /\ ws s' = ws s /\
  match r with Some t => 1 <= cur s' /\ text_ok (room + 1) t | None => True end.
Proof.
  induction fuel as [|f IH]; intros room s G F F0 R; [lia|]. pose proof G as (GM & GS & GC). cbn [read_text].
  unfold bopt at 1. unfold bbind at 1. unfold GetNextChar at 1. unfold bbind at 1, bget.
  destruct (cur s >=? size s) eqn:E; [unfold bret at 1; cbv iota; done G|].
  destruct (brd_in s (cur s) G ltac:(lia)) as (c & Ec & Ic). unfold bbind at 1. rewrite Ec. unfold bbind at 1, bseek at 1, bret at 1. cbv iota.
  change (mkby (mem s) (size s) (cur s + 1) (ws s)) with (seek s (cur s + 1)). pose proof (good_seek s (cur s + 1) G ltac:(lia)) as G1.
  destruct (c =? 60).
  - eexists _, _. split; [reflexivity|]. split; [exact G1|]. split; [reflexivity|]. cbn [seek cur]. split; [lia|].
    split; [constructor|cbn; lia].
  - destruct (room <=? 0) eqn:ER; [done G1|].
    destruct (IH (room - 1) (seek s (cur s + 1)) G1 ltac:(cbn [seek cur]; lia) ltac:(lia) ltac:(lia)) as (r & s' & E' & G' & W' & Q').
    unfold bopt, bbind. rewrite E'. destruct r as [t|].
    + eexists _, _. split; [reflexivity|]. split; [exact G'|]. split; [exact W'|]. destruct Q' as (Q1 & Q2 & Q3).
      split; [exact Q1|]. split; [constructor; assumption|cbn [length]; lia].
    + eexists _, _. split; [reflexivity|]. split; [exact G'|]. split; [exact W'|exact I].
Qed.
Lemma read_back_safe : forall max A (k : list Z -> B (option A)) Q, 1 <= max -> (forall t, text_ok max t -> calm (k t) (opt Q)) ->
  calm (do* s := bget in do? v := read_text (S (Z.to_nat (size s - cur s))) (max - 1) in do* _ := PushBackChar in k v) (opt Q).
Proof.
  intros max A k Q X H s G. pose proof G as (GM & GS & GC). unfold bbind at 1, bget at 1.
  destruct (read_text_safe (S (Z.to_nat (size s - cur s))) (max - 1) s G ltac:(lia) ltac:(lia) ltac:(lia)) as (r & s' & E & G' & W & R).
  unfold bopt. unfold bbind at 1. rewrite E. destruct r as [t|]; [|eexists _, _; split; [reflexivity|]; split; [exact G'|]; split; [exact W|exact I]].
  destruct R as (C & T). replace (max - 1 + 1) with max in T by lia. unfold bbind at 1. rewrite PushBack_spec by lia.
  destruct (H t T (seek s' (cur s' - 1))) as (r2 & s2 & E2 & G2 & W2 & Q2); [apply good_seek; [exact G'|destruct G' as (_ & _ & ?); lia]|].
  exists r2, s2. split; [exact E2|]. split; [exact G2|]. split; [cbn [seek ws] in W2; congruence|exact Q2].
Qed.
Lemma primitive_safe : forall tag max, 1 <= max -> calm (Xer_DecodePrimitiveElement L tag max) (opt (text_ok max)).
Proof.
  intros tag max X. unfold Xer_DecodePrimitiveElement. replace (max <? 1) with false by lia.
  assert (T0 : text_ok max []) by (split; [constructor|cbn; lia]).
  apply calm_expect. intros _. apply calm_word. eapply calm_bind; [apply NT_safe|]. intros t _.
  destruct (fst t =? 47); [apply calm_expect; intros _; now apply calm_ret|].
  destruct (negb (fst t =? 62)); [now apply calm_ret|].
  apply read_back_safe; [exact X|]. intros v V. apply calm_expect. intros _. apply calm_expect. intros _. apply calm_word.
  apply calm_expect. intros _. now apply calm_ret.
Qed.
(** Without '=' no attribute is read. *)
Lemma start_safe : ~ In 61 M -> forall tag a, calm (Xer_DecodeComplexElementStart L tag a) (opt any).
Proof.
  intros NE tag a. unfold Xer_DecodeComplexElementStart. destruct tag as [|x tag]; [now apply calm_ret|].
  apply calm_expect. intros _. apply calm_word. eapply calm_opt with (P := any).
  - unfold Xer_DecodeAttributes. apply calm_get. intros s0 _. cbn [attributes_loop].
    eapply calm_bind; [apply (calm_back _ _ _ (fun t => t)), NT_safe|]. intros t _.
    destruct (fst t =? 62); [now apply calm_ret|]. eapply calm_bind; [apply NT_safe|]. intros t1 _.
    destruct (negb _); [now apply calm_ret|]. apply calm_expect. intros [D|[D|D]]; [contradiction|discriminate|discriminate].
  - intros a' _. eapply calm_bind; [apply NT_safe|]. intros t _. destruct (fst t =? 47); [apply calm_expect; intros _; now apply calm_ret|].
    apply calm_ret. now destruct (fst t =? 62).
Qed.
Lemma end_safe : forall tag, calm (Xer_DecodeComplexElementEnd L tag) (opt any).
Proof.
  intros tag. unfold Xer_DecodeComplexElementEnd. destruct tag as [|x tag]; [now apply calm_ret|].
  apply calm_expect. intros _. apply calm_expect. intros _. apply calm_word. eapply calm_weak; [apply expect_safe|]. now intros [[]|].
Qed.
Lemma tag_safe : calm (Xer_LA_NextElementTag L) (opt any).
Proof.
  eapply calm_weak; [apply (calm_back _ _ _ (fun r => r)) with (P := opt any)|intros [?|] _; exact I].
  apply calm_expect. intros _. eapply calm_bind; [apply NT_safe|]. intros t _. destruct (negb _); [now apply calm_ret|].
  eapply calm_bind; [apply NT_safe|]. intros u _. destruct (fst u =? 47); [apply calm_expect; intros _; now apply calm_ret|].
  apply calm_ret. now destruct (fst u =? 62).
Qed.
Lemma flag_safe : forall A (m : B (option A)) P, calm m P -> calm (flag_of m) any.
Proof. intros A m P H. eapply calm_weak; [apply calm_back with (P := P); exact H|]. intros; exact I. Qed.
Lemma next_start_safe : forall tag, calm (Xer_NextStartElementIs L tag) any.
Proof.
  intros tag. eapply flag_safe with (P := opt any). apply calm_expect. intros _. apply calm_word.
  eapply calm_bind; [apply NT_safe|]. intros t _. destruct (fst t =? 47).
  - eapply calm_weak; [apply expect_safe|]. now intros [[]|].
  - apply calm_ret. now destruct (fst t =? 62).
Qed.
Lemma next_end_safe : forall tag, calm (Xer_NextEndElementIs L tag) any.
Proof.
  intros tag. eapply flag_safe with (P := opt any). apply calm_expect. intros _. apply calm_expect. intros _. apply calm_word.
  eapply calm_weak; [apply expect_safe|]. now intros [[]|].
Qed.

Lemma null_safe : forall tag, calm (Xer_DecodeNull L tag) (opt any).
Proof. intros tag. eapply calm_opt; [apply primitive_safe; lia|]. intros t _. now apply calm_ret. Qed.
Lemma integer_safe : ato_sat L = true -> forall tag, calm (Xer_DecodeInteger L tag) (opt is_s64).
Proof.
  intros SAT tag. eapply calm_opt; [apply primitive_safe; lia|]. intros t _.
  assert (A : exists v, atoll L (cstr t) = Ok v /\ is_s64 v).
  { unfold atoll. destruct (number (cstr t)) as [neg m]. cbv zeta. rewrite SAT. unfold in_s64, is_s64, two63.
    match goal with |- context [if ?c then _ else _] => match c with _ && _ => destruct c eqn:E end end.
    - eexists. split; [reflexivity|]. lia.
    - eexists. split; [reflexivity|]. destruct neg; lia. }
  destruct A as (v & E & V). eapply calm_lift; [exact E|]. now apply calm_ret.
Qed.
Lemma digits_value_nonneg : forall l a, 0 <= a -> 0 <= digits_value l a.
Proof. induction l as [|c l IH]; intros a A; cbn [digits_value]; [exact A|]. destruct (isdigit c) eqn:E; [|exact A]. apply IH. unfold isdigit in E. lia. Qed.
Lemma pos_integer_safe : forall tag, calm (Xer_DecodePosInteger L tag) (opt is_u64).
Proof.
  intros tag. eapply calm_opt; [apply primitive_safe; lia|]. intros t _. apply calm_ret. cbn. unfold strtoull.
  destruct (number (cstr t)) as [neg m]. unfold is_u64, u64, two64. destruct (_ <=? m); [lia|]. apply Z.mod_pos_bound. lia.
Qed.
Lemma boolean_safe : ~ In 61 M -> forall tag, calm (Xer_DecodeBoolean L tag) (opt any).
Proof.
  intros NE tag. eapply calm_opt; [apply start_safe, NE|]. intros a _. eapply calm_opt; [apply tag_safe|]. intros t _. cbv zeta.
  eapply calm_opt; [apply primitive_safe; lia|]. intros v _. eapply calm_opt; [apply end_safe|]. intros e _. now apply calm_ret.
Qed.
Lemma enumerated_safe : ~ In 61 M -> forall tag, calm (Xer_DecodeEnumerated L tag) (opt any).
Proof.
  intros NE tag. eapply calm_opt; [apply start_safe, NE|]. intros a _. eapply calm_opt; [apply tag_safe|]. intros t _.
  eapply calm_opt; [apply primitive_safe; lia|]. intros v _. eapply calm_opt; [apply end_safe|]. intros e _. now apply calm_ret.
Qed.
Lemma unspaced_safe : forall l, Forall (fun b => In b M) l -> exists r, unspaced L l = Ok r /\ (length r <= length l)%nat.
Proof.
  induction l as [|c l IH]; intros F; [exists []; split; [reflexivity|cbn; lia]|]. inversion F as [|? ? Ic Fl]; subst.
  destruct (IH Fl) as (r & E & R). cbn [unspaced]. unfold isspace_c. rewrite (proj1 (Forall_forall _ _) HC c Ic). cbn [obind]. rewrite E. cbn [obind].
  eexists. split; [reflexivity|]. destruct (isspace c); cbn [length]; lia.
Qed.
Lemma cstr_sub : forall l (P : Z -> Prop), Forall P l -> Forall P (cstr l) /\ (length (cstr l) <= length l)%nat.
Proof.
  induction l as [|c l IH]; intros P F; [split; [constructor|cbn; lia]|]. inversion F; subst. cbn [cstr].
  destruct (IH P ltac:(assumption)). destruct (c =? 0); [split; [constructor|cbn; lia]|]. split; [constructor; assumption|cbn [length]; lia].
Qed.
Lemma updZ_ok : forall l i v, 0 <= i < Z.of_nat (length l) -> exists l', updZ l i v = Ok l' /\ length l' = length l.
Proof.
  intros l i v I. unfold updZ. replace (_ || _) with false by lia.
  eexists. split; [reflexivity|]. generalize (Z.to_nat i). clear. induction l as [|b l IH]; intros [|n]; cbn; auto.
Qed.
Lemma octet_loop_safe : forall l i max value, 0 <= i -> max <= Z.of_nat (length value) ->
  exists r, octet_loop l i max value = Ok r /\ match r with Some v => length v = length value | None => True end.
Proof.
  induction l as [|c l IH]; intros i max value I X; cbn [octet_loop]; [eexists; split; [reflexivity|reflexivity]|].
  destruct (i / 2 <? max) eqn:E; [|eexists; split; [reflexivity|reflexivity]].
  destruct (CharToNibble c) as [n|]; [|eexists; split; [reflexivity|exact Logic.I]].
  destruct (i mod 2 =? 0).
  - destruct (updZ_ok value (i / 2) (byte_of (Z.shiftl n 4)) ltac:(lia)) as (v & Ev & Lv). rewrite Ev. cbn [obind].
    destruct (IH (i + 1) max v ltac:(lia) ltac:(lia)) as (r & Er & Lr). exists r. split; [exact Er|]. rewrite Lv in Lr. exact Lr.
  - assert (NZ : nthZ value (i / 2) = Ok (nth (Z.to_nat (i / 2)) value 0)) by (rewrite <- nthZ_nat by lia; f_equal; lia).
    rewrite NZ. cbn [obind].
    match goal with |- context [updZ value (i / 2) ?x] => destruct (updZ_ok value (i / 2) x ltac:(lia)) as (v & Ev & Lv) end. rewrite Ev. cbn [obind].
    destruct (IH (i + 1) max v ltac:(lia) ltac:(lia)) as (r & Er & Lr). exists r. split; [exact Er|]. rewrite Lv in Lr. exact Lr.
Qed.
Lemma bit_loop_safe : forall l i max value, 0 <= i -> max <= Z.of_nat (length value) ->
  exists v, bit_loop l i max value = Ok v /\ length v = length value.
Proof.
  induction l as [|c l IH]; intros i max value I X; cbn [bit_loop]; [eexists; split; [reflexivity|reflexivity]|].
  destruct (i / 8 <? max) eqn:E; [|eexists; split; [reflexivity|reflexivity]]. cbv zeta.
  assert (NZ : nthZ value (i / 8) = Ok (nth (Z.to_nat (i / 8)) value 0)) by (rewrite <- nthZ_nat by lia; f_equal; lia).
    rewrite NZ. cbn [obind].
  match goal with |- context [updZ value (i / 8) ?x] => destruct (updZ_ok value (i / 8) x ltac:(lia)) as (v & Ev & Lv) end. rewrite Ev. cbn [obind].
  destruct (IH (i + 1) max v ltac:(lia) ltac:(lia)) as (r & Er & Lr). exists r. split; [exact Er|]. congruence.
Qed.
Lemma octets_safe : forall tag value max, max <= Z.of_nat (length value) ->
  calm (Xer_DecodeOctetString L tag value max) (opt (fun r => length (fst r) = length value /\ 0 <= snd r <= 512)).
Proof.
  intros tag value max X. eapply calm_opt; [apply (primitive_safe tag 1024); lia|]. intros t [F TL].
  destruct (cstr_sub t _ F) as [F' L']. destruct (unspaced_safe _ F') as (d & Ed & Ld). eapply calm_lift; [exact Ed|].
  destruct (octet_loop_safe d 0 max value ltac:(lia) X) as (r & Er & Lr). unfold bopt. eapply calm_lift; [exact Er|].
  destruct r as [v|]; [|now apply calm_ret]. cbv zeta. apply calm_ret. cbn. split; [exact Lr|lia].
Qed.
(** memset clears up to 256 bytes whatever the bound is. *)
Lemma bits_safe : forall tag value max, max <= Z.of_nat (length value) -> 256 <= Z.of_nat (length value) ->
  calm (Xer_DecodeBitString L tag value max) (opt (fun r => length (fst r) = length value /\ 0 <= snd r <= 2047)).
Proof.
  intros tag value max X Y. eapply calm_opt; [apply (primitive_safe tag 2048); lia|]. intros t [F TL].
  destruct (cstr_sub t _ F) as [F' L']. destruct (unspaced_safe _ F') as (d & Ed & Ld). eapply calm_lift; [exact Ed|]. cbv zeta.
  set (n := Z.to_nat _). assert (n <= 256)%nat by (unfold n; destruct (_ =? 0) eqn:E; lia).
  eapply calm_lift; [unfold memset0; replace (n <=? length value)%nat with true by lia; reflexivity|].
  assert (ZL : length (repeat 0 n ++ skipn n value) = length value) by (rewrite app_length, repeat_length, skipn_length; lia).
  destruct (bit_loop_safe d 0 max (repeat 0 n ++ skipn n value) ltac:(lia) ltac:(lia)) as (v & Ev & Lv). eapply calm_lift; [exact Ev|].
  apply calm_ret. cbn. split; [congruence|lia].
Qed.
Lemma oid_safe : ato_sat L = true -> forall tag values, (20 <= length values)%nat ->
  calm (Xer_DecodeObjectIdentifier L tag values) (opt (fun v => length v = length values)).
Proof.
  intros SAT tag values V. eapply calm_opt; [apply (primitive_safe tag 1024); lia|]. intros t [F TL]. cbv zeta.
  destruct (cstr_sub t _ F) as [F' L']. destruct (unspaced_safe _ F') as (d & Ed & Ld). eapply calm_lift; [exact Ed|].
  set (n := Nat.min _ 20). assert (n <= 20)%nat by (unfold n; lia). destruct n as [|n]; [now apply calm_ret|].
  assert (A : exists v, atoll L (d ++ skipn (length d) (cstr t)) = Ok v).
  { unfold atoll. destruct (number _) as [neg m]. cbv zeta. rewrite SAT. destruct (in_s64 _); eexists; reflexivity. }
  destruct A as (v & E). eapply calm_lift; [exact E|]. apply calm_ret. unfold opt. rewrite app_length, repeat_length, skipn_length. lia.
Qed.
End Safe.

(** What the memory must satisfy for the character class functions. *)
Lemma harmless_calm : forall A L (ok : list Z -> Prop) (f : B A) P,
  (forall M, ok M -> Forall (fun b => char_ok L b = true) M) ->
  (forall M N, Forall is_byte M -> Forall (fun b => char_ok L b = true) M -> ok M -> N <= Z.of_nat (length M) -> calm M N f P) ->
  harmless ok f P.
Proof.
  intros A L ok f P HO H s HB O C S. destruct (H (mem s) (size s) HB (HO _ O) O S s) as (r & s' & E & (G1 & G2 & G3) & W & Pr).
  - split; [reflexivity|]. split; [reflexivity|lia].
  - exists r, s'. repeat split; try assumption; lia.
Qed.
