(** The reference semantics (Hist.v) gives the same answers to a program whose allocators
    have handed out fewer bytes. *)
From Verif Require Import Base Spec Lex Alloc AllocProofs Mem MemProofs Api Double Vocab Hist.

(** [R2] is [R] with smaller bounds of use. *)
Definition leaner (R R2 : rst) : Prop := exists u, R2 = mkR (rG R) (rn R) (rh R) u /\ Forall2 N.le u (ru R).
Definition ole (r r2 : option (answer * rst)) : Prop := forall x R', r = Some (x, R') -> exists R2', r2 = Some (x, R2') /\ leaner R' R2'.
Lemma ole_none r2 : ole None r2. Proof. intros x R' H. discriminate. Qed.
Lemma ole_some x R R2 : leaner R R2 -> ole (Some (x, R)) (Some (x, R2)).
Proof. intros L y R' [= <- <-]. eauto. Qed.
Lemma leaner_refl R : leaner R R.
Proof. exists (ru R). destruct R as [G n hh u]; cbn. split; auto. induction u; constructor; auto. lia. Qed.

Lemma f2_nth (u u' : list N) : Forall2 N.le u u' -> forall A x', nth_error u' A = Some x' -> exists x, nth_error u A = Some x /\ x <= x'.
Proof.
  induction 1 as [|x y l l' Hxy _ IH]; intros [|A] x' H; try discriminate.
  - injection H as <-. exists x. auto.
  - cbn in *. auto.
Qed.
Lemma f2_setn (u u' : list N) : Forall2 N.le u u' -> forall A x x', x <= x' -> Forall2 N.le (setn A x u) (setn A x' u').
Proof. induction 1; intros [|A] a a' L; cbn; constructor; auto. Qed.
Lemma spend_le R R2 A n R1 : leaner R R2 -> spend R A n = Some R1 -> exists R3, spend R2 A n = Some R3 /\ leaner R1 R3.
Proof.
  intros (u & -> & F) Sp. unfold spend in *. cbn [ru rG rn rh]. destruct (nth_error (ru R) A) as [x'|] eqn:E; [|discriminate].
  destruct (f2_nth _ _ F A x' E) as (x & -> & Le). destruct (N.leb_spec (x' + n) two30) as [L|L]; [|discriminate]. injection Sp as <-.
  destruct (N.leb_spec (x + n) two30) as [L2|L2]; [|lia]. eexists. split; [reflexivity|]. eexists. split; [reflexivity|]. cbn [ru]. apply f2_setn; auto. lia.
Qed.
Lemma scratch_le R R2 n R1 : leaner R R2 -> scratch R n = Some R1 -> exists R3, scratch R2 n = Some R3 /\ leaner R1 R3.
Proof.
  intros (u & -> & F) Sp. unfold scratch in *. cbn [ru rG rn rh]. destruct (forallb _ (ru R)) eqn:E; [|discriminate]. injection Sp as <-.
  assert (K : forallb (fun x => x + n <=? two30) u = true /\ Forall2 N.le (map (fun x => x + n) u) (map (fun x => x + n) (ru R))).
  { induction F as [|x y l l' Hxy _ IH]; cbn in *; [auto|]. apply andb_prop in E as [E1 E2]. destruct (IH E2) as [K1 K2]. rewrite K1.
    apply N.leb_le in E1. split; [|constructor; auto; lia]. destruct (N.leb_spec (x + n) two30); auto. lia. }
  destruct K as [-> K2]. eexists. split; [reflexivity|]. eexists. split; [reflexivity|]. exact K2.
Qed.
Lemma ole_spend R R2 A n (f g : rst -> option (answer * rst)) : leaner R R2 -> (forall R1 R3, leaner R1 R3 -> ole (f R1) (g R3)) ->
  ole (match spend R A n with None => None | Some R1 => f R1 end) (match spend R2 A n with None => None | Some R1 => g R1 end).
Proof.
  intros L K x R' H. destruct (spend R A n) as [R1|] eqn:E; [|discriminate]. destruct (spend_le _ _ _ _ _ L E) as (R3 & -> & L3). eapply K; eauto.
Qed.
Lemma ole_scratch R R2 n (f g : rst -> option (answer * rst)) : leaner R R2 -> (forall R1 R3, leaner R1 R3 -> ole (f R1) (g R3)) ->
  ole (match scratch R n with None => None | Some R1 => f R1 end) (match scratch R2 n with None => None | Some R1 => g R1 end).
Proof.
  intros L K x R' H. destruct (scratch R n) as [R1|] eqn:E; [|discriminate]. destruct (scratch_le _ _ _ _ L E) as (R3 & -> & L3). eapply K; eauto.
Qed.

Lemma le_assign R R2 h w j : leaner R R2 -> leaner (assign R h w j) (assign R2 h w j).
Proof.
  intros (u & -> & F). unfold assign, with_handle. destruct w as [[i t]|]; cbn [rG rn rh ru]; destruct (plant _ _ _) as [[v g] n'];
    eexists; (split; [reflexivity|exact F]).
Qed.
Lemma le_sealed R R2 R0 R02 w : leaner R R2 -> leaner R0 R02 -> leaner (sealed R0 w R) (sealed R02 w R2).
Proof. intros (u & -> & F) (u0 & -> & F0). exists u. split; auto. Qed.
Lemma le_handle R R2 h o : leaner R R2 -> leaner (with_handle R h o) (with_handle R2 h o).
Proof. intros (u & -> & F). exists u. split; auto. Qed.
Lemma le_forest R R2 G : leaner R R2 -> leaner (with_forest R G) (with_forest R2 G).
Proof. intros (u & -> & F). exists u. split; auto. Qed.
Lemma le_new R R2 o A : leaner R R2 -> leaner (new_value R o A) (new_value R2 o A).
Proof. intros (u & -> & F). exists u. split; auto. Qed.
Lemma le_duplicate R R2 t j : leaner R R2 -> leaner (duplicate R t j) (duplicate R2 t j).
Proof. intros (u & -> & F). unfold duplicate. cbn [rG rn rh ru]. destruct (plant _ _ _) as [[v g] n']. exists u. split; auto. Qed.
Lemma le_key R R2 h w k : leaner R R2 -> leaner (assign_key R h w k) (assign_key R2 h w k).
Proof. intros (u & -> & F). unfold assign_key. destruct w as [[i t]|]; exists u; (split; [reflexivity|exact F]). Qed.
Lemma le_charge R R2 ru0 ru2 : leaner R R2 -> Forall2 N.le ru2 ru0 -> leaner (mkR (rG R) (rn R) (rh R) ru0) (mkR (rG R2) (rn R2) (rh R2) ru2).
Proof. intros (u & -> & F) K. exists ru2. split; auto. Qed.
Lemma le_same {X} (f : rst -> X) R R2 : (forall G n hh u u', f (mkR G n hh u) = f (mkR G n hh u')) -> leaner R R2 -> f R2 = f R.
Proof. intros H (u & -> & _). destruct R as [G n hh u0]; cbn. apply H. Qed.
Lemma le_look R R2 h : leaner R R2 -> look R2 h = look R h. Proof. now apply (le_same (fun R => look R h)). Qed.
Lemma le_reads R R2 i : leaner R R2 -> reads_as R2 i = reads_as R i. Proof. now apply (le_same (fun R => reads_as R i)). Qed.
Lemma le_child R R2 k l : leaner R R2 -> child_by R2 k l = child_by R k l. Proof. now apply (le_same (fun R => child_by R k l)). Qed.
Lemma le_keys R R2 l : leaner R R2 -> keys_ok R2 l = keys_ok R l. Proof. now apply (le_same (fun R => keys_ok R l)). Qed.
Lemma le_allowed R R2 w : leaner R R2 -> key_allowed R2 w = key_allowed R w. Proof. now apply (le_same (fun R => key_allowed R w)). Qed.
Lemma le_rG R R2 : leaner R R2 -> rG R2 = rG R. Proof. now apply (le_same rG). Qed.
Lemma le_rn R R2 : leaner R R2 -> rn R2 = rn R. Proof. now apply (le_same rn). Qed.
Lemma le_rh R R2 : leaner R R2 -> rh R2 = rh R. Proof. now apply (le_same rh). Qed.
Lemma le_len R R2 : leaner R R2 -> length (ru R2) = length (ru R).
Proof. intros (u & -> & F). cbn. induction F; cbn; auto. Qed.
Lemma ole_checked R R2 G i (f g : rst -> option (answer * rst)) : leaner R R2 -> (forall R1 R3, leaner R1 R3 -> ole (f R1) (g R3)) ->
  ole (match checked R G i with None => None | Some R1 => f R1 end) (match checked R2 G i with None => None | Some R1 => g R1 end).
Proof. intros L K. unfold checked. rewrite (le_rn _ _ L). destruct (read _ G i); [|apply ole_none]. apply K. now apply le_forest. Qed.

#[local] Hint Resolve le_assign le_sealed le_handle le_forest le_new le_duplicate le_key leaner_refl : lean.
Ltac even :=
  repeat match goal with
  | L : leaner ?R ?R2 |- context [look ?R2 ?h] => rewrite (le_look R R2 h L)
  | L : leaner ?R ?R2 |- context [reads_as ?R2 ?h] => rewrite (le_reads R R2 h L)
  | L : leaner ?R ?R2 |- context [child_by ?R2 ?k ?h] => rewrite (le_child R R2 k h L)
  | L : leaner ?R ?R2 |- context [keys_ok ?R2 ?h] => rewrite (le_keys R R2 h L)
  | L : leaner ?R ?R2 |- context [key_allowed ?R2 ?h] => rewrite (le_allowed R R2 h L)
  | L : leaner ?R ?R2 |- context [rG ?R2] => rewrite (le_rG R R2 L)
  | L : leaner ?R ?R2 |- context [rn ?R2] => rewrite (le_rn R R2 L)
  | L : leaner ?R ?R2 |- context [rh ?R2] => rewrite (le_rh R R2 L)
  | L : leaner ?R ?R2 |- context [rG (duplicate ?R2 ?t ?j)] => rewrite (le_rG _ _ (le_duplicate R R2 t j L))
  end.
Ltac lean1 :=
  match goal with
  | |- ole None _ => apply ole_none
  | |- ole (Some (_, _)) (Some (_, _)) => apply ole_some; solve [auto with lean]
  | |- ole (match spend _ _ _ with _ => _ end) _ => apply ole_spend; [assumption|intros ? ? ?]
  | |- ole (match scratch _ _ with _ => _ end) _ => apply ole_scratch; [assumption|intros ? ? ?]
  | |- ole (match checked _ _ _ with _ => _ end) _ => apply ole_checked; [assumption|intros ? ? ?]
  | |- ole (match ?c with _ => _ end) _ => destruct c
  end.
Lemma lean_step jd c R R2 : leaner R R2 -> ole (rstep jd c R) (rstep jd c R2).
Proof.
  intro L. destruct c; cbn [rstep]; cbv zeta; unfold give, copy_text, set_if, seal_if, key_if;
    try (repeat (even; lean1); fail).
  rewrite (le_len _ _ L). destruct L as (u & -> & F). cbn [ru rG rn rh]. apply ole_some. eexists. split; [reflexivity|]. cbn [ru]. apply Forall2_app; auto. constructor; auto. lia.
Qed.
