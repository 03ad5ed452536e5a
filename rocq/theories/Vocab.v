(** The vocabulary in which the properties are stated.

    [inv s F]: the memory [s] holds the documents [F] and is in order.  It holds
    of the empty program state (with no documents), and every call that a theorem
    of the Prop*.v files speaks about re-establishes it.
    [vols] marks memory the documents must not depend on (the caller's buffers,
    allocators that will be released); the theorems hold for every such marking. *)
From Verif Require Import Base Spec Lex LexProofs Alloc AllocProofs Mem MemProofs Api PureParse
  Dom Effect Steps SetProofs ParseTop.

Definition valid (t : bytes) : Prop := exists j, json_text t j.

(** A 0-terminated string at [src]. *)
Definition cstring (s : st) (src : addr) (t : bytes) : Prop :=
  ~ In 0 t /\ exists slack, text_at s src = t ++ 0 :: slack.
(** A pointer result to a 0-terminated copy of [t]. *)
Definition string_at (s : st) (w : word) (t : bytes) : Prop := exists d, w = At d /\ holds s d (t ++ [0]).
(** The part of a buffer before its first 0 byte. *)
Fixpoint before0 (b : bytes) : bytes :=
  match b with
  | [] => []
  | c :: r => if c =? 0 then [] else c :: before0 r
  end.
(** [k] readable bytes after the terminator of [t] are enough for the 4-byte loads
    of the literals: at least 3 (4) bytes follow every 'n' and 't' ('f') of [t],
    counting the terminator and the [k] bytes. *)
Definition slack_ok (t : bytes) (k : nat) : Prop :=
  forall a c b, t = a ++ c :: b ->
    ((c = 110 \/ c = 116) -> (2 <= length b + k)%nat) /\ (c = 102 -> (3 <= length b + k)%nat).
(** After [a] a value may follow: after a line break, [null] can be put there and the
    text be continued to a JSON text. *)
Definition value_expected (a : bytes) : Prop := exists z, valid (a ++ 10 :: txt "null" ++ z).
(** In [t], followed by its terminator and [k] readable bytes, a value begins with 'n', 't'
    (or 'f') where fewer than three (four) bytes follow. *)
Definition cut_literal (t : bytes) (k : nat) : Prop :=
  exists a c b, t = a ++ c :: b /\ value_expected a /\
    (((c = 110 \/ c = 116) /\ (length b + k < 2)%nat) \/ (c = 102 /\ (length b + k < 3)%nat)).
(** [m] accepts exactly the JSON texts: it accepts every valid [t], and whenever it
    returns it has told whether [t] is valid.  The only thing that can go wrong is a
    read outside the memory it may read. *)
Definition judges (m : M bool) (s : st) (t : bytes) : Prop :=
  (valid t -> exists s', m s = Ok (true, s')) /\
  (forall r s', m s = Ok (r, s') -> (r = true <-> valid t)) /\
  (forall e, m s = Err e -> e = EOob).
(** Room for [n] more bytes in allocator [A] (well inside the 32-bit range). *)
Definition room (s : st) (A n : N) : Prop := usedA s A + n <= two30.

Section WithVol.
Context {VV : vols}.

(** ** Observing *)
(** The value object [v] (with allocator [A]) stands for node [a] of the documents. *)
Definition on (s : st) (F : dom) (v : addr) (a : addr) (A : N) : Prop := handle s F v (At a) A.
Definition empty (s : st) (F : dom) (v : addr) (A : N) : Prop := handle s F v Null A.
(** Its content is [j]. *)
Definition content (s : st) (F : dom) (v : addr) (j : json) : Prop :=
  exists a A, on s F v a A /\ reads F a j.
(** Its key. *)
Definition key_is (s : st) (F : dom) (v : addr) (k : option bytes) : Prop :=
  exists a A f, on s F v a A /\ F a = Some f /\ fkey f = k.

(** A 0-terminated string that stays as it is while the documents use it: it lies
    neither in the library's scratch string nor in memory marked volatile. *)
Definition kept (s : st) (src : addr) (t : bytes) : Prop := cstring s src t /\ safetext s src t.

(** ** Effects *)
(** All documents and all value objects are as before. *)
Definition untouched (s : st) (F : dom) (s' : st) : Prop :=
  inv s' F /\ forall u w A, handle s F u w A -> handle s' F u w A.

(** The content of [v] is now [j].  A document that contains [v]'s node at
    position [p] has [j] at that position and is otherwise as before; a value
    that does not contain it is as before.  All keys stay. *)
Record assigned (s : st) (F : dom) (v : addr) (w : word) (j : json) (s' : st) (F' : dom) : Prop := {
  as_inv : inv s' F';
  as_val : content s' F' v j;
  as_above : forall u b B p a ju, w = At a -> on s F u b B -> path F b p a -> reads F b ju ->
    on s' F' u b B /\ reads F' b (jset p j ju);
  as_beside : forall u b B ju, on s F u b B -> (forall a, w = At a -> ~ below F b a) -> reads F b ju -> u <> v ->
    on s' F' u b B /\ reads F' b ju;
  as_empty : forall u B, empty s F u B -> u <> v -> empty s' F' u B;
  as_key : forall u k, key_is s F u k -> key_is s' F' u k
}.

Lemma ext_untouched c s s' F : inv s F -> ext none none c s s' -> untouched s F s'.
Proof. intros I X. split; [eapply ext_inv; eauto|]. intros. eapply handle_ext; eauto. Qed.
Lemma untouched_content s F s' v j : untouched s F s' -> content s F v j -> content s' F v j.
Proof. intros [_ H] (a & A & H1 & H2). exists a, A. split; auto. now apply H. Qed.

Lemma parsed_changed s F v w A c j s' F' a : inv s F -> parsed s F v w A c j s' F' a -> changed none F F' a.
Proof.
  intros I P x f Hx _. destruct (addr_dec x a) as [->|N].
  - destruct (pd_root _ _ _ _ _ _ _ _ _ _ P) as (f' & E & L). rewrite Hx in L. exists f'. split; auto. split; [congruence|].
    intros y _ _. apply L.
  - exists f. split; [|auto]. eapply pd_old; eauto.
Qed.
Lemma parsed_on s F v w A c j s' F' a u x B : inv s F -> handle s F v w A -> parsed s F v w A c j s' F' a ->
  handle s F u x B -> u <> v \/ w <> Null -> handle s' F' u x B.
Proof.
  intros I (Hv & _) P (H1 & [H2 N2] & H3) Hu. pose proof (pd_ext _ _ _ _ _ _ _ _ _ _ P) as X. split; [|split; [split|]].
  - destruct Hu as [Hu|Hu].
    + apply (x_vals _ _ _ _ _ X); auto.
    + now rewrite (pd_keep _ _ _ _ _ _ _ _ _ _ P Hu).
  - now apply (x_alive _ _ _ _ _ X).
  - auto.
  - destruct H3 as [H3|(y & E & Hy)]; [now left|right]. exists y. split; auto.
    destruct (F y) as [f|] eqn:Ey; [|congruence].
    destruct (parsed_changed _ _ _ _ _ _ _ _ _ _ I P y f Ey) as (f' & E' & _); [auto|]. congruence.
Qed.
Lemma parsed_assigned s F v w A c j s' F' a : inv s F -> handle s F v w A -> parsed s F v w A c j s' F' a ->
  assigned s F v w j s' F'.
Proof.
  intros I H P. pose proof (parsed_changed _ _ _ _ _ _ _ _ _ _ I P) as C.
  assert (Hw : w = At a \/ w = Null) by (destruct (pd_at _ _ _ _ _ _ _ _ _ _ P) as [E|[E _]]; auto).
  assert (New : w = Null -> F a = None).
  { intros ->. destruct (pd_at _ _ _ _ _ _ _ _ _ _ P) as [E|[_ B]]; [discriminate|]. eapply inv_beyond; eauto. }
  constructor.
  - apply P.
  - exists a, A. split; [|apply P]. split; [apply P|]. destruct H as (_ & [H2 N2] & _). split; [split; [|auto]|].
    + apply (x_alive _ _ _ _ _ (pd_ext _ _ _ _ _ _ _ _ _ _ P)); auto.
    + right. exists a. split; auto. destruct (pd_root _ _ _ _ _ _ _ _ _ _ P) as (f' & E & _). congruence.
  - intros u b B p a' ju -> Hu Pa R. assert (a' = a) as -> by (destruct Hw; congruence). split.
    + eapply (parsed_on s F v (At a) A); eauto. right. discriminate.
    + eapply (changed_path none F F' a j); eauto; [apply I|apply P].
  - intros u b B ju Hu Nb R Hne. split; [eapply (parsed_on s F v w A); eauto|].
    destruct Hw as [->|Hw].
    + eapply (changed_frame none F F' a); eauto.
    + eapply (changed_frame none F F' a); eauto. intro K. destruct (proj1 (reads_below F) b ju R a K) as (j' & R').
      specialize (New Hw). inversion R'; congruence.
  - intros u B Hu Hne. eapply (parsed_on s F v w A); eauto.
  - intros u k (b & B & f & Hu & Hb & Hk).
    destruct (C b f Hb) as (f' & E & _); [auto|].
    exists b, B, f'. split; [|split; auto].
    + eapply (parsed_on s F v w A); eauto. destruct (addr_dec u v) as [->|]; auto. right. destruct H as (H1 & _). destruct Hu as (H1' & _). congruence.
    + destruct (addr_dec b a) as [->|Nb].
      * destruct (pd_root _ _ _ _ _ _ _ _ _ _ P) as (f1 & E1 & L). rewrite Hb in L. replace f' with f1 by congruence.
        destruct L as [(L & _) _]. congruence.
      * rewrite (pd_old _ _ _ _ _ _ _ _ _ _ P b f Hb Nb) in E. congruence.
Qed.
End WithVol.
