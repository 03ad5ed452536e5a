(** The string builder: any sequence of appends. *)
From Verif Require Import Base Spec Lex LexProofs Alloc AllocProofs Mem MemProofs Api PureParse
  Dom Effect Steps StrBuf SetProofs ParseTop Vocab.

Inductive append_op := AStr (bs : bytes) | AChar (c : N).
Definition op_bytes (o : append_op) : bytes := match o with AStr bs => bs | AChar c => [c] end.
Definition do_append (p : addr) (o : append_op) : M unit :=
  match o with AStr bs => zj_appendStr p bs | AChar c => zj_appendChar p c end.
Fixpoint do_appends (p : addr) (l : list append_op) : M unit :=
  match l with
  | [] => ret tt
  | o :: r => do_append p o ;;; do_appends p r
  end.
(** A new string of initial size [n], the appends, its contents. *)
Definition build (A n : N) (l : list append_op) : M addr := p <- zj_newString A n ;; do_appends p l ;;; zj_str p.
Definition appended (l : list append_op) : bytes := concat (map op_bytes l).

Lemma do_appends_sb Dn Dv A I0 K0 s0 p : wfst s0 -> alive s0 A -> I0 <= two30 -> forall l s out,
  sbx Dn Dv A I0 K0 s0 s p out -> usedA s0 A + K0 + 4 * (lenN out + lenN (appended l)) <= two30 ->
  wp (do_appends p l) s (fun _ s' => sbx Dn Dv A I0 K0 s0 s' p (out ++ appended l)).
Proof.
  intros W Al HI. induction l as [|o l IH]; intros s out B Hu; cbn [do_appends].
  - apply wp_ret. unfold appended. cbn. now rewrite app_nil_r.
  - assert (E : appended (o :: l) = op_bytes o ++ appended l) by reflexivity. rewrite E, lenN_app in Hu.
    eapply wp_seq with (P := fun _ s' => sbx Dn Dv A I0 K0 s0 s' p (out ++ op_bytes o)).
    + destruct o as [bs|c]; cbn [do_append op_bytes] in *.
      * eapply wp_mono; [eapply appendStr_sb; eauto; lia|]. intros x s' [K _]. exact K.
      * eapply wp_mono; [eapply appendChar_sb; eauto; unfold lenN in *; cbn [length] in Hu; lia|]. intros x s' [K _]. exact K.
    + intros x s' B'. rewrite E, app_assoc. apply IH; auto. rewrite lenN_app. lia.
Qed.
Section WithVol.
Context {VV : vols}.
Lemma build_exact s F A n l : inv s F -> alive s A -> 0 < n -> room s A (24 + n + 4 * lenN (appended l)) ->
  exists d s', build A n l s = Ok (d, s') /\ holds s' d (appended l) /\ untouched s F s'.
Proof.
  intros I Al Hn Hr. unfold room in Hr.
  assert (K : wp (build A n l) s (fun d s' => holds s' d (appended l) /\ exists c, ext none none c s s')).
  { unfold build. eapply wp_seq; [eapply (newString_sb none none A n 0 s s); auto; [apply I|apply ext_start, I|lia]|].
    intros p s1 (B & _ & _). eapply wp_seq; [eapply (do_appends_sb none none A n (0 + (24 + n)) s p); eauto; [apply I|lia|]|].
    - change (lenN []) with 0. lia.
    - intros [] s2 B2. eapply wp_mono; [eapply sbx_text; exact B2|]. intros d s3 (-> & H & _ & _ & X). split; eauto. }
  destruct K as (d & s' & E & H & c & X). exists d, s'. split; auto. split; auto. eapply ext_untouched; eauto.
Qed.
End WithVol.
