(** The arena without the memory: sizes, growth, and when nothing wraps. *)
From Verif Require Import Base Lex LexProofs Alloc.

Definition two30 : N := 1073741824.

(** Bytes requested so far. *)
Fixpoint used (ar : arena) : N :=
  match ar with [] => 0 | c :: r => ckPos c + used r end.

Definition wf_arena (ar : arena) : Prop :=
  match ar with
  | [] => False
  | c :: _ => zj_AllocatorInitMemSize <= ckSize c /\ ckSize c <= N.max zj_AllocatorInitMemSize (2 * used ar)
  end /\ Forall (fun c => ckPos c <= ckSize c) ar.

Lemma first_wf b : wf_arena [first_chunk b].
Proof. split; [simpl; unfold zj_AllocatorInitMemSize; lia|]. repeat constructor. simpl. lia. Qed.
Lemma first_used b : used [first_chunk b] = 0.
Proof. reflexivity. Qed.

Lemma grow_ok f : forall need s, 0 < s -> need <= two30 -> need <= s * 2 ^ N.of_nat f ->
  exists s', grow f need s = Ok s' /\ need <= s' /\ s <= s' /\ (s' = s \/ s' < 2 * need).
Proof.
  induction f as [|f IH]; intros need s Hs Hn Hb; simpl grow.
  - change (N.of_nat 0) with 0 in Hb. rewrite N.pow_0_r in Hb.
    destruct (N.ltb_spec s need); [lia|]. exists s. repeat split; auto; lia.
  - destruct (N.ltb_spec s need) as [L|L].
    + assert (E : u32 (s * zj_Delta) = s * 2).
      { unfold zj_Delta. apply u32_small. unfold two30, two32 in *. lia. }
      rewrite E. destruct (IH need (s * 2)) as (s' & Hg & H1 & H2 & H3); auto; try lia.
      * replace (N.of_nat (S f)) with (N.succ (N.of_nat f)) in Hb by lia.
        rewrite N.pow_succ_r' in Hb. lia.
      * exists s'. repeat split; auto; try lia.
    + exists s. repeat split; auto; lia.
Qed.

Lemma grow_ok40 need s : 0 < s -> need <= two30 ->
  exists s', grow grow_fuel need s = Ok s' /\ need <= s' /\ s <= s' /\ (s' = s \/ s' < 2 * need).
Proof.
  intros Hs Hn. apply grow_ok; auto.
  change (2 ^ N.of_nat grow_fuel) with 1099511627776. unfold two30 in Hn. lia.
Qed.

(** Once the 32-bit size has become 0 the doubling loop never ends. *)
Lemma grow_zero f need : 0 < need -> grow f need 0 = Err EFuel.
Proof.
  intro H. induction f as [|f IH]; simpl grow.
  - destruct (N.ltb_spec 0 need); [reflexivity|lia].
  - destruct (N.ltb_spec 0 need); [|lia]. change (u32 (0 * zj_Delta)) with 0. exact IH.
Qed.

(** Out of fuel within 40 doublings means out of fuel whatever the fuel. *)
Lemma double_zero f : forall s, s < two32 -> forall need, grow f need s = Err EFuel ->
  (33 <= f)%nat -> forall f', grow f' need s = Err EFuel.
Proof.
  (* after k doublings the size is s*2^k mod 2^32; after 32 it is 0 *)
  assert (K : forall k need s, (forall i, (i <= k)%nat -> s * 2 ^ N.of_nat i mod two32 < need) ->
    forall f', grow (k + f') need (u32 s) = grow f' need (u32 (s * 2 ^ N.of_nat k)) ).
  { induction k as [|k IH]; intros need s H f'.
    - change (N.of_nat 0) with 0. now rewrite N.pow_0_r, N.mul_1_r.
    - simpl Nat.add. simpl grow.
      assert (L : u32 s < need).
      { specialize (H O ltac:(lia)). change (N.of_nat 0) with 0 in H.
        now rewrite N.pow_0_r, N.mul_1_r in H. }
      destruct (N.ltb_spec (u32 s) need); [|lia].
      replace (u32 (u32 s * zj_Delta)) with (u32 (s * 2)).
      + rewrite IH.
        * f_equal. f_equal. replace (N.of_nat (S k)) with (N.succ (N.of_nat k)) by lia.
          rewrite N.pow_succ_r'. lia.
        * intros i Hi. specialize (H (S i) ltac:(lia)).
          replace (N.of_nat (S i)) with (N.succ (N.of_nat i)) in H by lia.
          rewrite N.pow_succ_r' in H.
          replace (s * 2 * 2 ^ N.of_nat i) with (s * (2 * 2 ^ N.of_nat i)) by lia. exact H.
      + unfold u32, zj_Delta. rewrite N.mul_mod_idemp_l by discriminate. reflexivity. }
  assert (Z : forall s i, (32 <= i)%nat -> s * 2 ^ N.of_nat i mod two32 = 0).
  { intros s i Hi. replace (N.of_nat i) with (N.of_nat (i - 32) + 32) by lia.
    rewrite N.pow_add_r, N.mul_assoc. change (2 ^ 32) with two32. apply N.mod_mul. discriminate. }
  (* if some doubling reached [need] the loop would have ended *)
  assert (T : forall g need s, grow g need (u32 s) = Err EFuel ->
    forall i, (i <= g)%nat -> s * 2 ^ N.of_nat i mod two32 < need).
  { induction g as [|g IH]; intros need s H i Hi.
    - simpl grow in H. assert (i = 0%nat) by lia; subst i. change (N.of_nat 0) with 0.
      rewrite N.pow_0_r, N.mul_1_r. destruct (N.ltb_spec (u32 s) need); [assumption|discriminate].
    - simpl grow in H. destruct (N.ltb_spec (u32 s) need) as [L|L]; [|discriminate].
      destruct i as [|i].
      + change (N.of_nat 0) with 0. now rewrite N.pow_0_r, N.mul_1_r.
      + replace (u32 (u32 s * zj_Delta)) with (u32 (s * 2)) in H.
        * specialize (IH _ _ H i ltac:(lia)).
          replace (N.of_nat (S i)) with (N.succ (N.of_nat i)) by lia. rewrite N.pow_succ_r'.
          replace (s * (2 * 2 ^ N.of_nat i)) with (s * 2 * 2 ^ N.of_nat i) by lia. exact IH.
        * unfold u32, zj_Delta. rewrite N.mul_mod_idemp_l by discriminate. reflexivity. }
  intros s Hs need H Hf f'. rewrite <- (u32_small s Hs) in *.
  pose proof (T _ _ _ H) as HT.
  assert (Hall : forall i, s * 2 ^ N.of_nat i mod two32 < need).
  { intro i. destruct (Nat.le_gt_cases i 32) as [L|L].
    - apply HT. lia.
    - rewrite Z by lia. specialize (HT 32%nat ltac:(lia)). lia. }
  replace f' with (f' + 0)%nat by lia. rewrite K by (intros; apply Hall). simpl grow.
  specialize (Hall f'). unfold u32. destruct (N.ltb_spec (s * 2 ^ N.of_nat f' mod two32) need); [reflexivity|lia].
Qed.

(** The doubling loop as modelled stands for the real one: it answers [EFuel]
    only if no number of doublings is enough. *)
Lemma grow_forever need s : s < two32 -> grow grow_fuel need s = Err EFuel ->
  forall f, grow f need s = Err EFuel.
Proof. intros Hs H f. apply (double_zero grow_fuel); auto. unfold grow_fuel. lia. Qed.

Inductive alloc_case (next : N) (ar : arena) (n : N) : alloc_out -> Prop :=
| ac_same c r : ar = c :: r -> ckPos c + n <= ckSize c ->
    alloc_case next ar n
      (mkOut (ckBlk c, ckBase c + ckPos c) (mkChunk (ckBlk c) (ckBase c) (ckSize c) (ckPos c + n) :: r) None)
| ac_new s : n <= s -> 0 < n -> 24 + s < two32 ->
    alloc_case next ar n (mkOut (next, 24) (mkChunk next 24 s n :: ar) (Some (24 + s))).

Lemma arena_alloc_ok next ar n : wf_arena ar -> used ar + n <= two30 ->
  exists o, arena_alloc next ar n = Ok o /\ alloc_case next ar n o /\
    wf_arena (oarena o) /\ used (oarena o) = used ar + n.
Proof.
  intros [Hw HF] Hu. destruct ar as [|c r]; [destruct Hw|]. destruct Hw as [H4 Hmax].
  assert (Hp : ckPos c <= ckSize c) by (inversion HF; auto).
  cbn [used] in Hu, Hmax. unfold two30, zj_AllocatorInitMemSize in *.
  unfold arena_alloc. rewrite (u32_small (ckPos c + n)) by (unfold two32; lia).
  destruct (N.ltb_spec (ckSize c) (ckPos c + n)) as [L|L].
  - assert (E : u32 (ckSize c * zj_Delta) = ckSize c * 2).
    { unfold zj_Delta. apply u32_small. unfold two32. lia. }
    rewrite E. destruct (grow_ok40 n (ckSize c * 2)) as (s & Hg & H1 & H2 & H3).
    + lia.
    + unfold two30. lia.
    + rewrite Hg. cbn [rbind].
      rewrite (u32_small (0 + n)), (u32_small (sizeof_aNode + s))
        by (unfold two32, sizeof_aNode; lia).
      change (sizeof_aNode + 0) with 24. change sizeof_aNode with 24. rewrite N.add_0_l.
      eexists. split; [reflexivity|]. split; [|split].
      * apply ac_new; unfold two32; lia.
      * cbn [oarena]. split.
        -- cbn [used ckPos ckSize]. unfold zj_AllocatorInitMemSize. lia.
        -- constructor; auto.
      * cbn [oarena used ckPos]. lia.
  - eexists. split; [reflexivity|]. split; [|split].
    + econstructor; eauto.
    + cbn [oarena]. split.
      * cbn [used ckPos ckSize]. unfold zj_AllocatorInitMemSize. lia.
      * constructor; [cbn [ckPos ckSize]; lia|]. inversion HF; auto.
    + cbn [oarena used ckPos]. lia.
Qed.

Lemma alloc_zero next ar : wf_arena ar -> used ar <= two30 ->
  exists o, arena_alloc next ar 0 = Ok o /\ oarena o = ar /\ onew o = None.
Proof.
  intros Hw Hu. destruct (arena_alloc_ok next ar 0 Hw) as (o & E & C & _); [lia|].
  exists o. split; auto. inversion C; subst; [|lia]. split; auto.
  cbn [oarena]. rewrite N.add_0_r. now destruct c.
Qed.
