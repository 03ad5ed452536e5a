(** Where no two value objects stand for the same node, programs over the beta header behave
    as if the getters remembered nothing. *)
From Verif Require Import Base Spec Lex Alloc AllocProofs Mem Dom Double Vocab Hist HistRun HistForest HistSim HistStep HistAll HistTree PrintFacts Beta BetaHist BetaStep BetaSim BetaCurrent.

(** ** The semantics without memory *)
(** The value objects with a node stand for different nodes. *)
Definition nodes_of (R : rst) : list N := flat_map (fun x => match fst x with Some i => [i] | None => [] end) (rh R).
Fixpoint distinct (l : list N) : bool := match l with [] => true | x :: r => negb (isinN x r) && distinct r end.
(** A getter answers what is there; every call pays for a copy. *)
Definition plain_get (jd : judge) (c : call) (R : rst) (h : nat) (num : bool) (o : tnode -> option bytes) : option (answer * rst) :=
  match look R h, now jd c R with
  | Some (w, A), Some x =>
      match w with
      | None => Some (x, R)
      | Some (_, t) =>
          match o t with
          | None => Some (x, R)
          | Some b => if negb num || tstop t then
                        match spend R A (if num then 8 else lenN b + 1) with None => None | Some R1 => Some (x, R1) end
                      else None
          end
      end
  | _, _ => None
  end.
Definition plain_step (jd : judge) (c : call) (R : rst) : option (answer * rst) :=
  match c with
  | CGetText num false h => plain_get jd c R h false (fun t => ntext num (tvalue t))
  | CGetUnEscape h => plain_get jd c R h false (fun t => ntext false (tvalue t))
  | CGetDouble h => plain_get jd c R h true (fun t => ntext true (tvalue t))
  | CGetKey false h | CGetUnEscapeKey h => plain_get jd c R h false tkey
  | _ => zrstep jd c R
  end.
Fixpoint plain_run (jd : judge) (cs : list call) (R : rst) : option (list answer * rst) :=
  match cs with
  | [] => Some ([], R)
  | c :: r =>
      if distinct (nodes_of R) then
        match plain_step jd c R with
        | None => None
        | Some (x, R1) => match plain_run jd r R1 with None => None | Some (xs, R2) => Some (x :: xs, R2) end
        end
      else None
  end.

Lemma isinN_in x l : isinN x l = true <-> In x l.
Proof.
  induction l as [|y l IH]; cbn; [split; [discriminate|intros []]|]. rewrite Bool.orb_true_iff, IH, N.eqb_eq. intuition.
Qed.
Lemma distinct_nd l : distinct l = true -> NoDup l.
Proof.
  induction l as [|x l IH]; cbn; intro H; [constructor|]. apply Bool.andb_true_iff in H as [H1 H2]. constructor; auto.
  intro K. apply isinN_in in K. rewrite K in H1. discriminate.
Qed.
Lemma distinct_single R : distinct (nodes_of R) = true -> single R.
Proof.
  intros H h h' i A A'. apply distinct_nd in H. unfold nodes_of in H. revert h h'. induction (rh R) as [|[o B] l IH]; intros h h' E E'; [destruct h; discriminate|].
  cbn in H. assert (In_ : forall k C, nth_error l k = Some (Some i, C) -> In i (flat_map (fun x => match fst x with Some i => [i] | None => [] end) l)).
  { intros k C Ek. apply in_flat_map. exists (Some i, C). split; [eapply nth_error_In; eauto|now left]. }
  assert (Hl : NoDup (flat_map (fun x => match fst x with Some i => [i] | None => [] end) l)) by (destruct o; cbn in H; [now inversion H|exact H]). destruct h as [|h], h' as [|h']; cbn in E, E'; auto.
  - injection E as -> ->. cbn in H. inversion H as [|? ? Ni]; subst. elim Ni. eauto.
  - injection E' as -> ->. cbn in H. inversion H as [|? ? Ni]; subst. elim Ni. eauto.
Qed.

(** ** Less used *)
Definition lighten (R : rst) (l : list N) : rst := mkR (rG R) (rn R) (rh R) l.
Definition lighter (l l' : list N) : Prop := Forall2 N.le l l'.
Lemma lighter_setn l l' A n : lighter l l' -> forall u u', nth_error l A = Some u -> nth_error l' A = Some u' -> lighter (setn A (u + n) l) (setn A (u' + n) l').
Proof.
  intro H. revert A. induction H as [|x y l l' L H IH]; intros A u u' E E'; [destruct A; discriminate|].
  destruct A as [|A]; cbn in *.
  - injection E as ->. injection E' as ->. apply Forall2_cons; [lia|exact H].
  - apply Forall2_cons; [exact L|]. now apply IH.
Qed.
Lemma lighter_length l l' : lighter l l' -> length l = length l'.
Proof. intro H. induction H; cbn; congruence. Qed.
Lemma lighter_nth l l' A u' : lighter l l' -> nth_error l' A = Some u' -> exists u, nth_error l A = Some u /\ u <= u'.
Proof.
  intro H. revert A. induction H as [|x y l l' L H IH]; intros [|A] E; try discriminate; cbn in *; eauto. injection E as ->. eauto.
Qed.
Lemma spend_light R l A n R1 : lighter l (ru R) -> spend R A n = Some R1 -> exists l1, spend (lighten R l) A n = Some (lighten R1 l1) /\ lighter l1 (ru R1).
Proof.
  intros L H. unfold spend in H. destruct (nth_error (ru R) A) as [u|] eqn:Eu; [|discriminate]. destruct (N.leb_spec (u + n) two30) as [Le|]; [|discriminate].
  injection H as <-. destruct (lighter_nth _ _ _ _ L Eu) as (x & Ex & Lx). exists (setn A (x + n) l). split; [|cbn; eapply lighter_setn; eauto].
  unfold spend. cbn [lighten ru]. rewrite Ex. destruct (N.leb_spec (x + n) two30); [reflexivity|lia].
Qed.
Lemma scratch_light R l n R1 : lighter l (ru R) -> scratch R n = Some R1 -> exists l1, scratch (lighten R l) n = Some (lighten R1 l1) /\ lighter l1 (ru R1).
Proof.
  intros L H. unfold scratch in *. destruct (forallb _ (ru R)) eqn:E; [|discriminate]. injection H as <-. exists (map (fun u => u + n) l). cbn [lighten ru].
  assert (K : forallb (fun u => u + n <=? two30) l = true /\ lighter (map (fun u => u + n) l) (map (fun u => u + n) (ru R))).
  { revert E. induction L as [|x y l l' Lx L IH]; cbn; [split; auto; constructor|]. intro E. apply Bool.andb_true_iff in E as [E1 E2].
    destruct (IH E2) as [K1 K2]. apply N.leb_le in E1. split; [|constructor; auto; lia]. rewrite K1. destruct (N.leb_spec (x + n) two30); [reflexivity|lia]. }
  destruct K as [-> K]. split; auto.
Qed.
Section Light.
Context (R : rst) (l : list N).
Lemma look_light h : look (lighten R l) h = look R h. Proof. reflexivity. Qed.
Lemma reads_light i : reads_as (lighten R l) i = reads_as R i. Proof. reflexivity. Qed.
Lemma child_light k ks : child_by (lighten R l) k ks = child_by R k ks. Proof. reflexivity. Qed.
Lemma keysok_light ks : keys_ok (lighten R l) ks = keys_ok R ks. Proof. reflexivity. Qed.
Lemma allowed_light w : key_allowed (lighten R l) w = key_allowed R w. Proof. reflexivity. Qed.
Lemma rG_light : rG (lighten R l) = rG R. Proof. reflexivity. Qed.
Lemma rn_light : rn (lighten R l) = rn R. Proof. reflexivity. Qed.
Lemma rh_light : rh (lighten R l) = rh R. Proof. reflexivity. Qed.
Lemma ru_light : ru (lighten R l) = l. Proof. reflexivity. Qed.
Lemma forest_light G : with_forest (lighten R l) G = lighten (with_forest R G) l. Proof. reflexivity. Qed.
Lemma handle_light h o : with_handle (lighten R l) h o = lighten (with_handle R h o) l. Proof. reflexivity. Qed.
Lemma new_light o A : new_value (lighten R l) o A = lighten (new_value R o A) l. Proof. reflexivity. Qed.
Lemma assign_light h w j : assign (lighten R l) h w j = lighten (assign R h w j) l.
Proof.
  unfold assign. cbn [lighten rn rG rh ru]. destruct w as [[i t]|]; [destruct (plant i j (rn R)) as [[v g] n']|destruct (plant (rn R) j (rn R + 1)) as [[v g] n']]; reflexivity.
Qed.
Lemma assignkey_light h w k : assign_key (lighten R l) h w k = lighten (assign_key R h w k) l.
Proof. now destruct w as [[i t]|]. Qed.
Lemma dup_light t j : duplicate (lighten R l) t j = lighten (duplicate R t j) l.
Proof. unfold duplicate. cbn [lighten rn rG rh ru]. destruct (plant (rn R) j (rn R + 1)) as [[v g] n']. reflexivity. Qed.
Lemma sealed_light R0 l0 w : sealed (lighten R0 l0) w (lighten R l) = lighten (sealed R0 w R) l.
Proof. reflexivity. Qed.
Lemma ru_assign h w j : ru (assign R h w j) = ru R.
Proof.
  unfold assign. destruct w as [[i t]|]; [destruct (plant i j (rn R)) as [[v g] n']|destruct (plant (rn R) j (rn R + 1)) as [[v g] n']]; reflexivity.
Qed.
Lemma ru_assignkey h w k : ru (assign_key R h w k) = ru R.
Proof. now destruct w as [[i t]|]. Qed.
Lemma ru_dup t j : ru (duplicate R t j) = ru R.
Proof. unfold duplicate. destruct (plant (rn R) j (rn R + 1)) as [[v g] n']. reflexivity. Qed.
End Light.
Lemma zrstep_light jd c R x R1 l : zrstep jd c R = Some (x, R1) -> lighter l (ru R) ->
  exists l1, zrstep jd c (lighten R l) = Some (x, lighten R1 l1) /\ lighter l1 (ru R1).
Proof.
  intros E L.
  destruct c; cbn [zrstep rstep] in *; unfold copy_text, give, zgive, set_if, seal_if, key_if, checked in *; rewrite ?look_light, ?rG_light, ?rn_light, ?ru_light, ?rh_light in *;
  repeat match goal with
         | H : None = Some _ |- _ => discriminate H
         | H : Some _ = Some _ |- _ => injection H; clear H; intros; subst
         | H : context [match ?y with _ => _ end] |- _ =>
             lazymatch type of H with _ = Some (_, _) =>
               let e := fresh "e" in destruct y eqn:e; try discriminate H;
               try lazymatch type of e with
                   | spend ?r _ _ = Some _ => let l1 := fresh "l" in let e1 := fresh "e" in let L1 := fresh "L" in
                       destruct (spend_light r l _ _ _ L e) as (l1 & e1 & L1); rewrite e1
                   | scratch ?r _ = Some _ => let l1 := fresh "l" in let e1 := fresh "e" in let L1 := fresh "L" in
                       destruct (scratch_light r l _ _ L e) as (l1 & e1 & L1); rewrite e1
                   end;
               rewrite ?reads_light, ?child_light, ?keysok_light, ?allowed_light, ?rG_light, ?rn_light, ?rh_light, ?dup_light in *
             end
         end.
  all: rewrite ?assign_light, ?assignkey_light, ?sealed_light, ?forest_light, ?handle_light, ?new_light, ?dup_light, ?forest_light, ?handle_light, ?new_light in *.
  all: try solve [eexists; split; [reflexivity|rewrite ?ru_assign, ?ru_assignkey, ?ru_dup; cbn [with_forest with_handle new_value sealed ru]; rewrite ?ru_assign, ?ru_assignkey, ?ru_dup; assumption]].
  - (* z_NewAllocator *) exists (l ++ [0]). rewrite (lighter_length _ _ L). split; [reflexivity|]. cbn. apply Forall2_app; [exact L|]. constructor; [lia|constructor].
  - match goal with H : match read ?a ?b ?c with _ => _ end = Some _ |- _ => destruct (read a b c); [|discriminate H]; injection H as <- end.
    rewrite handle_light. exists l. split; [reflexivity|exact L].
  - match goal with H : hang _ _ _ _ = Some _ |- _ => rewrite H end. rewrite forest_light. eexists. split; [reflexivity|]. cbn. rewrite ru_dup. assumption.
  - match goal with H : match read ?a ?b ?c with _ => _ end = Some _ |- _ => destruct (read a b c); [|discriminate H]; injection H as <- end.
    rewrite handle_light. exists l. split; [reflexivity|exact L].
Qed.
Lemma spend_more R A n R1 : spend R A n = Some R1 -> R1 = lighten R (ru R1) /\ forall l, lighter l (ru R) -> lighter l (ru R1).
Proof.
  unfold spend. destruct (nth_error (ru R) A) as [u|] eqn:Eu; [|discriminate]. destruct (_ <=? _); [|discriminate]. intros [= <-]. split; [reflexivity|].
  cbn [ru]. intros l H. revert l Eu H. generalize (ru R) as l'. intros l' l Eu H. revert A Eu. induction H as [|x y l l' L H IH]; intros [|A] Eu; cbn in *; try discriminate.
  - injection Eu as ->. apply Forall2_cons; [lia|exact H].
  - apply Forall2_cons; [exact L|]. now apply IH.
Qed.

(** ** Nobody notices *)
Lemma plain_sim jd c R x R1 l K : plain_step jd c R = Some (x, R1) -> lighter l (ru R) -> coherent jd (lighten R l) K ->
  exists l1 K1, brstep jd c (lighten R l, K) = Some (x, (lighten R1 l1, K1)) /\ lighter l1 (ru R1).
Proof.
  intros E L Co. destruct (caching c) eqn:Ec.
  - assert (Kn : forall h w A, look R h = Some (w, A) -> exists k, nth_error K h = Some k /\ match w with Some (_, t) => current jd t k | None => True end).
    { intros h w A Lk. destruct Co as [LK Co]. destruct (nth_error K h) as [k|] eqn:Ek.
      - exists k. split; auto. destruct w as [[i t]|]; auto. apply look_at in Lk as [L1 L2]. exact (Co h i A t k L1 L2 Ek).
      - exfalso. apply nth_error_None in Ek. rewrite LK in Ek. cbn in Ek. apply nth_error_None in Ek. unfold look in Lk. now rewrite Ek in Lk. }
    assert (Same : forall y, Some (y, R) = Some (x, R1) -> exists l1 K1, Some (y, (lighten R l, K)) = Some (x, (lighten R1 l1, K1)) /\ lighter l1 (ru R1)).
    { intros y [= -> ->]. exists l, K. auto. }
    destruct c as [| | | | | | | | | | | | | | | | | |num f h|h| | | |h|f h|h| | | | | | | | | | |]; try destruct f; try discriminate Ec;
      cbn [plain_step brstep] in *; unfold plain_get in E; cbn [negb orb] in E; rewrite look_light; cbv beta iota zeta delta [now] in E;
      (destruct (look R h) as [[[[i t]|] A]|] eqn:Lk; [| |discriminate]);
      destruct (Kn h _ A Lk) as (k & Ek & Cu); rewrite Ek; try (apply Same; exact E).
    all: destruct Cu as (C1 & C2 & C3 & C4).
    + (* string, number text *)
      destruct (ntext num (tvalue t)) as [b|] eqn:Eb; [|auto]. cbn [option_map] in E. destruct (spend R A (lenN b + 1)) as [R2|] eqn:Sp; [|discriminate].
      injection E as <- <-. unfold recall. destruct (kStr k) as [y|] eqn:Es.
      * rewrite (C1 num b y eq_refl Eb). destruct (spend_more _ _ _ _ Sp) as [-> M]. exists l, K. split; [reflexivity|]. now apply M.
      * destruct (spend_light _ _ _ _ _ L Sp) as (l1 & -> & L1). eauto.
    + (* decoded string *)
      destruct (ntext false (tvalue t)) as [b|] eqn:Eb; [|auto]. destruct (o_dec jd b) as [d|] eqn:Ed; [|discriminate]. cbn [option_map] in E.
      destruct (spend R A (lenN b + 1)) as [R2|] eqn:Sp; [|discriminate]. injection E as <- <-. destruct (kAlt k) as [|y|y].
      * unfold recall. destruct (spend_light _ _ _ _ _ L Sp) as (l1 & -> & L1). eauto.
      * destruct C4 as (b' & d' & E1 & E2 & ->). assert (b' = b) by congruence. subst b'. assert (d' = d) by congruence. subst d'.
        destruct (spend_more _ _ _ _ Sp) as [-> M]. exists l, K. split; [reflexivity|]. now apply M.
      * destruct C4 as (b' & E1 & _). exfalso. destruct (tvalue t); discriminate.
    + (* number *)
      destruct (ntext true (tvalue t)) as [b|] eqn:Eb; cbn [option_map]; [|auto]. destruct (o_real jd b) as [d|] eqn:Ed; [|discriminate]. cbn [option_map] in E.
      destruct (tstop t) eqn:Ts; [|discriminate]. destruct (spend R A 8) as [R2|] eqn:Sp; [|discriminate]. injection E as <- <-. destruct (kAlt k) as [|y|y].
      * destruct (spend_light _ _ _ _ _ L Sp) as (l1 & -> & L1). eauto.
      * destruct C4 as (b' & d' & E1 & _). exfalso. destruct (tvalue t); discriminate.
      * destruct C4 as (b' & E1 & E2). assert (b' = b) by congruence. subst b'. assert (y = d) by congruence. subst y.
        destruct (spend_more _ _ _ _ Sp) as [-> M]. exists l, K. split; [reflexivity|]. now apply M.
    + (* key *)
      destruct (tkey t) as [b|] eqn:Eb; [|auto]. cbn [option_map] in E. destruct (spend R A (lenN b + 1)) as [R2|] eqn:Sp; [|discriminate].
      injection E as <- <-. unfold recall. destruct (kKey k) as [y|] eqn:Es.
      * rewrite (C2 b y eq_refl eq_refl). destruct (spend_more _ _ _ _ Sp) as [-> M]. exists l, K. split; [reflexivity|]. now apply M.
      * destruct (spend_light _ _ _ _ _ L Sp) as (l1 & -> & L1). eauto.
    + (* decoded key *)
      destruct (tkey t) as [b|] eqn:Eb; [|auto]. destruct (o_dec jd b) as [d|] eqn:Ed; [|discriminate]. cbn [option_map] in E.
      destruct (spend R A (lenN b + 1)) as [R2|] eqn:Sp; [|discriminate]. injection E as <- <-. unfold recall. destruct (kUn k) as [y|] eqn:Es.
      * destruct (C3 b y eq_refl eq_refl) as (d' & E2 & ->). assert (d' = d) by congruence. subst d'.
        destruct (spend_more _ _ _ _ Sp) as [-> M]. exists l, K. split; [reflexivity|]. now apply M.
      * destruct (spend_light _ _ _ _ _ L Sp) as (l1 & -> & L1). eauto.
  - rewrite brstep_plain by exact Ec. assert (Ez : zrstep jd c R = Some (x, R1)).
    { destruct c as [| | | | | | | | | | | | | | | | | |num f h| | | | | |f h| | | | | | | | | | | |]; try destruct f; try discriminate Ec; exact E. }
    destruct (zrstep_light jd c R x R1 l Ez L) as (l1 & -> & L1). eauto.
Qed.
Lemma light_single R l : single R -> single (lighten R l). Proof. intro H. exact H. Qed.
Lemma plain_brrun jd : correct jd -> forall cs p ys R l K xs R1, brrun jd p (rstart, []) = Some (ys, (lighten R l, K)) -> lighter l (ru R) -> coherent jd (lighten R l) K ->
  plain_run jd cs R = Some (xs, R1) -> exists l1 K1, brrun jd cs (lighten R l, K) = Some (xs, (lighten R1 l1, K1)).
Proof.
  intro J. induction cs as [|c cs IH]; intros p ys R l K xs R1 P L Co H; cbn [plain_run] in H.
  - injection H as <- <-. exists l, K. reflexivity.
  - destruct (distinct (nodes_of R)) eqn:Di; [|discriminate]. destruct (plain_step jd c R) as [[x R2]|] eqn:Es; [|discriminate].
    destruct (plain_run jd cs R2) as [[zs R3]|] eqn:Er; [|discriminate]. injection H as <- <-.
    destruct (plain_sim jd c R x R2 l K Es L Co) as (l2 & K2 & Eb & L2).
    assert (P2 : brrun jd (p ++ [c]) (rstart, []) = Some (ys ++ [x], (lighten R2 l2, K2))) by (rewrite brrun_app, P; cbn [brrun]; now rewrite Eb).
    destruct (brstep_current jd c (lighten R l) K x (lighten R2 l2) K2 Eb) as [Co2 _]; auto; [apply light_single; now apply distinct_single|eapply brrun_bounded; eauto|].
    destruct (IH (p ++ [c]) _ R2 l2 K2 zs R3 P2 L2 Co2 Er) as (l1 & K1 & E1). exists l1, K1. cbn [brrun]. now rewrite Eb, E1.
Qed.
Theorem plain_program jd cs xs R : correct jd -> plain_run jd cs rstart = Some (xs, R) ->
  forall fuel, (bmost jd cs (rstart, []) <= fuel)%nat -> exists l E B s, brun fuel cs estart bstart init = Ok (((xs, E), B), s) /\ represents (lighten R l) E s.
Proof.
  intros J H fuel Hf. destruct (plain_brrun jd J cs [] [] rstart (ru rstart) [] xs R) as (l & K & E); auto.
  - cbn. constructor.
  - split; auto. intros h i A t k Eh. destruct h; discriminate.
  - change (lighten rstart (ru rstart)) with rstart in E. destruct (bprogram_most jd J cs xs _ K E fuel Hf) as (E' & B & s & Er & Rp). exists l, E', B, s. auto.
Qed.
