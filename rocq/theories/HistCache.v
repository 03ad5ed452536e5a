(** Which calls touch the pointer to the library's scratch string (the static of
    zj_checkStrLen and zj_checkNumLen). *)
From Verif Require Import Base Spec Lex Alloc Mem Api Double Vocab Scene Dom CacheProofs Hist HistRun HistStep.

Definition keepsC {X} (m : M X) : Prop := forall s x s', m s = Ok (x, s') -> scache s' = scache s.
Definition setsC {X} (m : M X) : Prop := forall s x s', m s = Ok (x, s') -> scache s' <> Null.

Lemma kc_ret X (x : X) : keepsC (ret x). Proof. intros s y s' [= <- <-]. reflexivity. Qed.
Lemma kc_fail X e : keepsC (@fail X e). Proof. intros s y s' H. discriminate. Qed.
Lemma kc_lift X (r : res X) : keepsC (lift r).
Proof. intros s y s' H. unfold lift in H. destruct r; [|discriminate]. now injection H as <- <-. Qed.
Lemma kc_get X (f : st -> option X) e : keepsC (get f e).
Proof. intros s y s' H. unfold get in H. destruct (f s); [|discriminate]. now injection H as <- <-. Qed.
Lemma kc_bind X Y (m : M X) (f : X -> M Y) : keepsC m -> (forall x, keepsC (f x)) -> keepsC (bind m f).
Proof.
  intros H K s y s' E. unfold bind in E. destruct (m s) as [[x s1]|e] eqn:E1; [|discriminate].
  rewrite (K x s1 y s' E). eapply H; eauto.
Qed.
Lemma sc_left X Y (m : M X) (f : X -> M Y) : setsC m -> (forall x, keepsC (f x)) -> setsC (bind m f).
Proof.
  intros H K s y s' E. unfold bind in E. destruct (m s) as [[x s1]|e] eqn:E1; [|discriminate].
  rewrite (K x s1 y s' E). eapply H; eauto.
Qed.
Lemma sc_right X Y (m : M X) (f : X -> M Y) : (forall x, setsC (f x)) -> setsC (bind m f).
Proof.
  intros K s y s' E. unfold bind in E. destruct (m s) as [[x s1]|e] eqn:E1; [|discriminate]. eapply K; eauto.
Qed.
Create HintDb keeps.
Ltac heads t := match t with ?f _ => heads f | _ => t end.
Ltac keepstep :=
  match goal with
  | |- keepsC (ret _) => apply kc_ret
  | |- keepsC (fail _) => apply kc_fail
  | |- keepsC (lift _) => apply kc_lift
  | |- keepsC (get _ _) => apply kc_get
  | |- keepsC (bind _ _) => apply kc_bind; [|intro]
  | |- keepsC (match ?x with _ => _ end) => destruct x
  | |- keepsC (fun _ => _) => let H := fresh in intros ? ? ? H; cbv beta in H; first [injection H as <- <-; reflexivity]
  | H : _ |- _ => exact H || apply H
  | |- _ => solve [auto with keeps nocore]
  | |- keepsC ?m => let h := heads m in unfold h; cbv beta zeta
  end.
Ltac keeps := cbv zeta; repeat keepstep.
Lemma kc_alloc A n : keepsC (zj_allocatorAlloc A n).
Proof.
  intros s x s' H. unfold zj_allocatorAlloc in H.
  repeat match type of H with (match ?x with _ => _ end) = _ => destruct x; try discriminate end; now injection H as <- <-.
Qed.
#[local] Hint Resolve kc_alloc : keeps.
Lemma kc_store a n b : keepsC (store a n b).
Proof. intros s x s' H. unfold store in H. destruct (_ <? _); [discriminate|]. now injection H as <- <-. Qed.
Lemma kc_load a n : keepsC (load a n).
Proof. apply kc_get. Qed.
Lemma kc_free b : keepsC (free_blk b).
Proof. intros s x s' H. unfold free_blk in H. destruct (sbsize s b); [|discriminate]. now injection H as <- <-. Qed.
Lemma kc_buf b : keepsC (user_buf b).
Proof. intros s x s' H. unfold user_buf in H. destruct (_ <=? _); [discriminate|]. now injection H as <- <-. Qed.
Lemma kc_ufree b : keepsC (user_free b).
Proof. intros s x s' H. unfold user_free in H. destruct (sbsize s b); [|discriminate]. now injection H as <- <-. Qed.
Lemma kc_putNode a n : keepsC (putNode a n).
Proof. unfold putNode. intros s x s' H. now injection H as <- <-. Qed.
Lemma kc_putVal a n : keepsC (putVal a n).
Proof. unfold putVal. intros s x s' H. now injection H as <- <-. Qed.
Lemma kc_putZ a n : keepsC (putZ a n).
Proof. unfold putZ. intros s x s' H. now injection H as <- <-. Qed.
#[local] Hint Resolve kc_store kc_load kc_free kc_buf kc_ufree kc_putNode kc_putVal kc_putZ : keeps.
Lemma kc_parse_loop zn A p tot root : forall fuel m n rest, keepsC (parse_loop zn fuel A p tot root m n rest).
Proof. induction fuel as [|f IH]; intros; cbn [parse_loop]; keeps. Qed.
#[local] Hint Resolve kc_parse_loop : keeps.
Lemma kc_stringify_loop root str : forall fuel m n, keepsC (stringify_loop fuel root str m n).
Proof. induction fuel as [|f IH]; intros; cbn [stringify_loop]; keeps. Qed.
Lemma kc_find_node test : (forall n, keepsC (test n)) -> forall fuel w, keepsC (find_node fuel test w).
Proof. intro T. induction fuel as [|f IH]; intros; cbn [find_node]; keeps. Qed.
Lemma kc_nth_node idx : forall fuel i w, keepsC (nth_node fuel i idx w).
Proof. induction fuel as [|f IH]; intros; cbn [nth_node]; keeps. Qed.
Lemma kc_copy_loop A root : forall fuel m n w, keepsC (copy_loop fuel A root m n w).
Proof. induction fuel as [|f IH]; intros; cbn [copy_loop]; keeps. Qed.
Lemma kc_adopt p : forall fuel w, keepsC (adopt fuel p w).
Proof. induction fuel as [|f IH]; intros; cbn [adopt]; keeps. Qed.
#[local] Hint Resolve kc_stringify_loop kc_nth_node kc_copy_loop kc_adopt : keeps.
Ltac keepstep ::=
  match goal with
  | |- keepsC (ret _) => apply kc_ret
  | |- keepsC (fail _) => apply kc_fail
  | |- keepsC (lift _) => apply kc_lift
  | |- keepsC (get _ _) => apply kc_get
  | |- keepsC (bind _ _) => apply kc_bind; [|intro]
  | |- keepsC (find_node _ _ _) => apply kc_find_node; intro
  | |- keepsC (match ?x with _ => _ end) => destruct x
  | |- keepsC (fun _ => _) => let H := fresh in intros ? ? ? H; cbv beta in H; first [injection H as <- <-; reflexivity]
  | H : _ |- _ => exact H || apply H
  | |- _ => solve [auto with keeps nocore]
  | |- keepsC ?m => let h := heads m in unfold h; cbv beta zeta
  end.

(** Only the Len setters do. *)
Lemma cstep_keeps fuel c E : cneed c = 0 -> keepsC (cstep fuel c E).
Proof.
  intro H. destruct c; cbn [cstep]; try (keeps; fail).
  - destruct k; cbn [cneed] in H; try (exfalso; clear - H; lia); destruct num; keeps.
  - destruct k; cbn [cneed] in H; try (exfalso; clear - H; lia); keeps.
Qed.
(** They keep the tables of the program. *)
Lemma cstep_env fuel c E s xe s' : cneed c <> 0 -> cstep fuel c E s = Ok (xe, s') -> snd xe = E.
Proof.
  intros H K. assert (W : forall X (f : X -> answer) m s1, with_env E f m s1 = Ok (xe, s') -> snd xe = E).
  { intros X f m s1 Q. unfold with_env, bind in Q. destruct (m s1) as [[x s2]|e]; [|discriminate]. now injection Q as <- <-. }
  destruct c; try (now elim H); cbn [cstep] in K; unfold bind at 1 in K; destruct (hof E h s) as [[v s1]|e]; try discriminate; eauto.
Qed.

Lemma check_len_sets check A a n : setsC (check_len check A a n).
Proof.
  intros s x s' H. unfold check_len in H. unfold bind at 1 in H. destruct (scache s) as [| |p] eqn:E; cbn [is_null] in H.
  - discriminate.
  - unfold bind at 1, ret at 1 in H. revert H. match goal with |- ?m s = _ -> _ => assert (K : setsC m); [|intro H; exact (K s x s' H)] end.
    apply sc_left; [|intro; keeps]. apply sc_right. intro q. apply sc_left; [|intro; keeps].
    intros s0 y s1 Q. injection Q as <- <-. discriminate.
  - assert (K : scache s' = scache s); [|rewrite K, E; discriminate]. unfold bind at 1, ret at 1 in H. revert H.
    match goal with |- ?m s = _ -> _ => assert (K : keepsC m); [|intro H; exact (K s x s' H)] end. keeps.
Qed.
(** After a text setter with a length the string is there. *)
Lemma cstep_sets fuel num k h t E : k = KLen \/ k = KLenFast -> setsC (cstep fuel (CSetText num k h t) E).
Proof.
  intro D. cbn [cstep]. apply sc_right. intro v. unfold with_env. apply sc_left; [|intro; keeps].
  destruct D as [-> | ->]; cbn [kept_kind kbuf pass]; unfold lend, keep; apply sc_right; intro p.
  - apply sc_left; [|intro; keeps].
    replace (set_text_call num KLen v p (lenN t)) with (set_text_len (if num then zj_checkNum else zj_checkStr) (if num then TNumber else TString) v p (lenN t))
      by (destruct num; reflexivity).
    unfold set_text_len. apply sc_right. intro x. apply sc_left; [apply check_len_sets|]. intro ok. keeps.
  - replace (set_text_call num KLenFast v p (lenN t)) with (set_text_len_fast (if num then zj_checkNum else zj_checkStr) (if num then TNumber else TString) v p (lenN t))
      by (destruct num; reflexivity).
    unfold set_text_len_fast. apply sc_right. intro x. apply sc_left; [apply check_len_sets|]. intro ok. keeps.
Qed.
