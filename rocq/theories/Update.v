(** Keeping the representation through updates of single nodes, new texts, and
    the setters built on them (numbers printed, texts escaped, keys). *)
From Verif Require Import Base Spec Lex LexProofs Alloc AllocProofs Mem MemProofs Api PureParse Dom Steps StrBuf StringifyProofs ParseProofs ParseTop CacheProofs SetProofs IntProofs EscProofs.

Section WithVol.
Context {VV : vols}.

Lemma inv_upd s F s' F' (Dn Dv : addr -> Prop) c : inv s F -> ext Dn Dv c s s' -> (forall A, isvol A -> c A = 0) -> wfdom F' ->
  (forall x f, F' x = Some f -> (~ Dn x /\ F x = Some f) \/
     (exists n, snodes s' x = Some n /\ rep_node s' n f /\ (F x <> None \/ beyond s x))) ->
  inv s' F'.
Proof.
  intros I X Hc D H. constructor; auto.
  - apply X.
  - intros x f Hx _. destruct (H x f Hx) as [[N E]|(n & Hn & R & _)]; [|eauto].
    destruct (ext_rep _ _ _ _ _ _ _ X (i_rep _ _ I) x f E) as (n & Hn & R); [unfold none; tauto|eauto].
  - eapply wfvol_ext; eauto. apply I.
  - intros x Hx. destruct (F' x) as [f|] eqn:E; [|congruence].
    assert (Old : F x <> None -> ~ vol s' (fst x)).
    { intro Fx. apply (vol_ext _ _ _ _ _ _ X); [|now apply (i_off _ _ I)].
      destruct (F x) as [g|] eqn:Ex; [|congruence]. destruct (i_rep _ _ I x g Ex) as (n & Hn & _); [auto|].
      eapply nodes_next; eauto. apply I. }
    destruct (H x f E) as [[N K]|(n & Hn & R & [K|K])]; auto; [apply Old; congruence|].
    eapply beyond_vol; eauto; [apply I|]. intros (_ & Z & _). congruence.
Qed.

(** ** New memory holding given bytes *)
Lemma new_text_wp s A n bs : wfst s -> wfvol s -> ~ isvol A -> alive s A -> usedA s A + n <= two30 -> lenN bs <= n ->
  wp (p <- zj_allocatorAlloc A n ;; store p n bs ;;; ret p) s
     (fun p s' => ext none none (at_ A n) s s' /\ filled s s' p bs).
Proof.
  intros W Wv NA Al Hu Hl.
  eapply wp_seq; [eapply (alloc_step none none A 0 n s s); auto; [now apply ext_start|lia]|].
  intros p s1 [X1 P]. cbn [N.add] in X1.
  eapply wp_seq; [eapply (fill_step none none (at_ A n) A n s s s1 p); eauto|].
  { eapply ext_more; [now apply ext_start|]. lia. }
  intros [] s2 [X2 Fl]. apply wp_ret. auto.
Qed.
Lemma copy_out_wp s A src bs : wfst s -> wfvol s -> ~ isvol A -> alive s A -> usedA s A + (lenN bs + 1) <= two30 ->
  holds s src bs -> wp (copy_out A (At src) (lenN bs)) s
     (fun w s' => exists p, w = At p /\ ext none none (at_ A (lenN bs + 1)) s s' /\ filled s s' p (bs ++ [0])).
Proof.
  intros W Wv NA Al Hu Hs. unfold copy_out.
  assert (E32 : u32 (lenN bs + 1) = lenN bs + 1) by (apply u32_small; unfold two30, two32 in *; lia).
  rewrite E32.
  eapply wp_seq; [eapply (alloc_step none none A 0 (lenN bs + 1) s s); auto; [now apply ext_start|lia]|].
  intros p s1 [X1 P]. cbn [N.add] in X1.
  apply wp_bind. unfold load_w. apply wp_bind, wp_deref. apply (wp_load src _ bs); auto.
  { intros i x E. rewrite (ap_bytes _ _ _ _ _ P). auto. }
  eapply wp_seq; [eapply (fill_step none none (at_ A (lenN bs + 1)) A (lenN bs + 1) s s s1 p); eauto|].
  { eapply ext_more; [now apply ext_start|]. lia. }
  { rewrite lenN_app. unfold lenN at 2. simpl. lia. }
  intros [] s2 [X2 Fl]. apply wp_ret. exists p. auto.
Qed.
Lemma unescape_out_wp s A src b o : wfst s -> wfvol s -> ~ isvol A -> alive s A -> usedA s A + (lenN b + 1) <= two30 ->
  holds s src b -> decodes b o -> wp (unescape_out A (At src) (lenN b)) s
     (fun w s' => exists p, w = At p /\ ext none none (at_ A (lenN b + 1)) s s' /\ filled s s' p (o ++ [0])).
Proof.
  intros W Wv NA Al Hu Hs Hd. unfold unescape_out.
  assert (E32 : u32 (lenN b + 1) = lenN b + 1) by (apply u32_small; unfold two30, two32 in *; lia).
  rewrite E32.
  eapply wp_seq; [eapply (alloc_step none none A 0 (lenN b + 1) s s); auto; [now apply ext_start|lia]|].
  intros p s1 [X1 P]. cbn [N.add] in X1.
  apply wp_bind, wp_deref, wp_bind, wp_readable.
  destruct (holds_text s1 src b (x_wf _ _ _ _ _ X1)) as (r & ->).
  { intros i x E. rewrite (ap_bytes _ _ _ _ _ P). auto. }
  apply wp_bind, (wp_lift _ o); [now apply unEscape_decodes|].
  eapply wp_seq; [eapply (fill_step none none (at_ A (lenN b + 1)) A (lenN b + 1) s s s1 p); eauto|].
  { eapply ext_more; [now apply ext_start|]. lia. }
  { rewrite lenN_app. unfold lenN at 2. simpl. pose proof (decodes_short _ _ Hd). lia. }
  intros [] s2 [X2 Fl]. apply wp_ret. exists p. auto.
Qed.

(** ** Numbers printed into new memory *)
Lemma set_printed_wp s F v w A size cap text : inv s F -> handle s F v w A -> lenN text + 1 <= cap -> cap <= size ->
  usedA s A + size + 72 <= two30 ->
  wp (set_printed v size cap text) s (fun r s' => r = true /\ set_to s F v w A (at_ A (size + 72)) (JNum text) s').
Proof.
  intros I H Hc Hs Hu. pose proof H as (Hv & [Al NA] & Hw). unfold set_printed.
  apply wp_bind, (wp_getVal _ _ _ _ Hv). cbn [vA].
  assert (Eo : firstn (N.to_nat cap - 1) text = text) by (apply firstn_all2; unfold lenN in Hc; lia).
  eapply wp_seq; [eapply (alloc_step none none A 0 size s s); auto; [apply ext_start; apply I|lia]|].
  intros p s1 [X1 P]. cbn [N.add] in X1. unfold snprintf. rewrite Eo. cbv zeta. apply wp_bind.
  eapply wp_seq; [eapply (fill_step none none (at_ A size) A size s s s1 p (text ++ [0])); eauto; try apply I|].
  { eapply ext_more; [apply ext_start; apply I|]. lia. }
  { rewrite lenN_app. unfold lenN at 2. simpl. lia. }
  intros [] s2 [X2 Fl]. apply wp_ret.
  pose proof (x_used _ _ _ _ _ X2 A) as Us. rewrite at_eq in Us.
  pose proof (fl_safe _ _ _ _ Fl) as Sf. apply safetext_app in Sf as [Sf _].
  eapply wp_mono; [eapply (set_done s F v w A s2 _ p TNumber _ (VNum text) text); eauto|].
  - apply Fl.
  - lia.
  - intros x s' (-> & F' & a & Pd). split; auto. exists F', a. eapply parsed_more; eauto. apply at_add.
Qed.
Lemma setInt_wp s F v w A z : inv s F -> handle s F v w A -> (int_min <= z <= int_max)%Z -> usedA s A + 88 <= two30 ->
  wp (zj_SetInt v z) s (fun r s' => r = true /\ set_to s F v w A (at_ A 88) (JNum (dec_text z)) s').
Proof.
  intros I H Hz Hu. pose proof (dec_int_len z Hz) as L.
  apply (set_printed_wp s F v w A 16 12); auto; unfold lenN; lia.
Qed.
Lemma setLong_wp s F v w A z : inv s F -> handle s F v w A -> (long_min <= z <= long_max)%Z -> usedA s A + 96 <= two30 ->
  wp (zj_SetLong v z) s (fun r s' => r = true /\ set_to s F v w A (at_ A 96) (JNum (dec_text z)) s').
Proof.
  intros I H Hz Hu. pose proof (dec_long_len z Hz) as L.
  apply (set_printed_wp s F v w A 24 24); auto; unfold lenN; lia.
Qed.
Lemma setLongLong_wp s F v w A z : inv s F -> handle s F v w A -> (long_min <= z <= long_max)%Z -> usedA s A + 96 <= two30 ->
  wp (zj_SetLongLong v z) s (fun r s' => r = true /\ set_to s F v w A (at_ A 96) (JNum (dec_text z)) s').
Proof. exact (setLong_wp s F v w A z). Qed.

(** ** Escaping setters *)
Definition esc_cost (b : bytes) : N := lenN (escape_text b) + 1.
Lemma escape_out_wp s A b : wfst s -> wfvol s -> ~ isvol A -> alive s A -> usedA s A + esc_cost b <= two30 ->
  wp (escape_out A b) s (fun p s' => ext none none (at_ A (esc_cost b)) s s' /\ filled s s' p (escape_text b ++ [0])).
Proof.
  intros W Wv NA Al Hu. unfold escape_out, esc_cost in *.
  assert (E : escape_len b = lenN (escape_text b)).
  { apply escape_len_text. unfold two30, two32 in *. lia. }
  rewrite E.
  assert (E32 : u32 (lenN (escape_text b) + 1) = lenN (escape_text b) + 1) by (apply u32_small; unfold two30, two32 in *; lia).
  rewrite E32. apply new_text_wp; auto. rewrite lenN_app. unfold lenN at 2. simpl. lia.
Qed.
Lemma escape_no0 b : ~ In 0 (escape_text b).
Proof. apply strbody_no0, strbody_set_strbody, escape_set. Qed.

Lemma set_escaped s F v w A b s1 p : inv s F -> handle s F v w A -> usedA s A + esc_cost b + 72 <= two30 ->
  ext none none (at_ A (esc_cost b)) s s1 -> filled s s1 p (escape_text b ++ [0]) ->
  wp (zj_SetStrFast v p) s1 (fun r s' => r = true /\ set_to s F v w A (at_ A (esc_cost b + 72)) (JStr (escape_text b)) s').
Proof.
  intros I H Hu X Fl. pose proof (x_used _ _ _ _ _ X A) as Us. rewrite at_eq in Us.
  pose proof (fl_safe _ _ _ _ Fl) as Sf. apply safetext_app in Sf as [Sf _].
  assert (I1 : inv s1 F) by (eapply ext_inv; eauto).
  assert (H1 : handle s1 F v w A) by (eapply handle_ext; eauto).
  eapply wp_mono; [eapply (set_text_fast_wp zj_checkStr TString VStr strbody_set); eauto|].
  - exact (fl_text _ _ _ _ Fl).
  - apply escape_no0.
  - lia.
  - intros r s' [(-> & _ & F' & a & Pd)|(_ & K & _)].
    + split; auto. exists F', a. eapply parsed_more; [eapply parsed_before; [exact X|apply Fl|exact Pd]|]. apply at_add.
    + elim K. apply escape_set.
Qed.
Lemma setStrEscape_wp s F v w A src b r : inv s F -> handle s F v w A -> text_at s src = b ++ 0 :: r -> ~ In 0 b ->
  usedA s A + esc_cost b + 72 <= two30 ->
  wp (zj_SetStrEscape v src) s (fun r s' => r = true /\ set_to s F v w A (at_ A (esc_cost b + 72)) (JStr (escape_text b)) s').
Proof.
  intros I H Ht N0 Hu. pose proof H as (Hv & [Al NA] & _). unfold zj_SetStrEscape.
  apply wp_bind, (wp_getVal _ _ _ _ Hv). cbn [vA]. unfold zj_escapeStr.
  apply wp_bind, wp_bind, wp_readable, wp_bind. rewrite Ht. apply (wp_lift _ b); [now apply cstr_of_app|].
  eapply wp_mono; [apply escape_out_wp; auto; try apply I; lia|]. intros p s1 [X Fl]. eapply set_escaped; eauto.
Qed.
Lemma setStrLenEscape_wp s F v w A src b : inv s F -> handle s F v w A -> holds s src b ->
  usedA s A + esc_cost b + 72 <= two30 ->
  wp (zj_SetStrLenEscape v src (lenN b)) s (fun r s' => r = true /\ set_to s F v w A (at_ A (esc_cost b + 72)) (JStr (escape_text b)) s').
Proof.
  intros I H Ht Hu. pose proof H as (Hv & [Al NA] & _). unfold zj_SetStrLenEscape.
  apply wp_bind, (wp_getVal _ _ _ _ Hv). cbn [vA]. unfold zj_escapeStrLen.
  apply wp_bind, wp_bind. apply (wp_load src _ b); auto.
  eapply wp_mono; [apply escape_out_wp; auto; try apply I; lia|]. intros p s1 [X Fl]. eapply set_escaped; eauto.
Qed.
End WithVol.
