(** Whole programs around the deep copy of Sample.v, and the documents of clients. *)
From Coq Require Import ZifyN.
From Verif Require Import Base Spec SpecProofs PureParse Dom Vocab CacheProofs ParseTop PrintFacts ParseFacts Api Mem MemProofs AllocProofs Lex LexProofs Scene SetFacts
  Hist HistRun HistForest HistSim HistStep HistAll HistMany HistWorld HistValid HistTree HistDocs HistJudge Footprint Work Client Sample.
From Verif Require OverRead.

(** [p], then what [f] makes of its result. *)
Fixpoint pbind {X Y} (p : prog X) (f : X -> prog Y) : prog Y :=
  match p with Ret x => f x | Stuck => Stuck | Act c k => Act c (fun a => pbind (k a) f) end.
Lemma rplay_bind jd {X Y} (f : X -> prog Y) : forall p R, rplay jd (pbind p f) R = match rplay jd p R with Some (x, R1) => rplay jd (f x) R1 | None => None end.
Proof. induction p as [x| |c k IH]; intro R; cbn [pbind rplay]; auto. destruct (sstep jd c R) as [[a R1]|]; auto. Qed.

(** ** The documents of a client *)
Section Docs.
Variable jd : judge.
Hypothesis J : correct jd.
Definition live (R : rst) : Prop := exists E nm F s, @sim novols R E nm F s /\ cache_own E s.
Lemma live_start : live rstart. Proof. do 4 eexists. split; [exact start_sim|exact start_own]. Qed.
Lemma live_step c R x R' : live R -> sstep jd c R = Some (x, R') -> live R'.
Proof.
  intros (E & nm & F & s & S & O) H.
  destruct (stmt_wp jd J c R x R' H novols E nm F s _ (le_n _) S O) as (xe & s' & _ & _ & O' & nm' & F' & S'). do 4 eexists. eauto.
Qed.
Lemma live_shape R : live R -> HistTree.shape (rn R) (rG R).
Proof. intros (E & nm & F & s & S & _). eapply represents_shape. exists nm, F. exact S. Qed.
Lemma spend_G R A n R1 : spend R A n = Some R1 -> rG R1 = rG R /\ rn R1 = rn R.
Proof. unfold spend. destruct (nth_error (ru R) A); [|discriminate]. destruct (_ <=? _); [|discriminate]. intro H. now injection H as <-. Qed.
Lemma docs_step c R x R' : live R -> docs_ok R -> sstep jd c R = Some (x, R') -> docs_ok R'.
Proof.
  intros L [S G T] H. pose proof (live_shape _ (live_step _ _ _ _ L H)) as S'.
  assert (K : forall c R1, rG R1 = rG R -> rn R1 = rn R -> rstep jd c R1 = Some (x, R') -> docs_ok R').
  { intros c' R1 E1 E2 E3. constructor; auto; [eapply rstep_good; [exact J| |exact E3]; now rewrite E1|eapply rstep_trees; [..|exact E3]; rewrite E1, ?E2; auto]. }
  destruct c as [c|len h hs|num len h hs]; cbn [sstep] in H.
  - eapply K; eauto.
  - destruct (look R hs) as [[w A]|]; [|discriminate]. destruct (match w with Some _ => _ | None => _ end) as [b|].
    + destruct len; [eapply K; eauto|]. destruct (spend R A _) as [R1|] eqn:Es; [|discriminate]. apply spend_G in Es as [E1 E2]. eapply K; eauto.
    + destruct len; [|discriminate]. injection H as <- <-. now constructor.
  - destruct (look R hs) as [[w A]|]; [|discriminate]. destruct (match w with Some _ => _ | None => _ end) as [b|].
    + destruct len; [eapply K; eauto|]. destruct (spend R A _) as [R1|] eqn:Es; [|discriminate]. apply spend_G in Es as [E1 E2]. eapply K; eauto.
    + injection H as <- <-. now constructor.
Qed.
Lemma docs_play {X} (p : prog X) : forall R x R', live R -> docs_ok R -> rplay jd p R = Some (x, R') -> live R' /\ docs_ok R'.
Proof.
  induction p as [x0| |c k IH]; intros R x R' L D H; cbn [rplay] in H; [injection H as <- <-; auto|discriminate|].
  destruct (sstep jd c R) as [[a R1]|] eqn:E; [|discriminate]. eapply (IH a R1); eauto; [eapply live_step|eapply docs_step]; eauto.
Qed.
Theorem client_docs {X} (p : prog X) x R : rplay jd p rstart = Some (x, R) -> live R /\ docs_ok R.
Proof. apply docs_play; [exact live_start|exact docs_start]. Qed.
Lemma live_ru R h o A : live R -> nth_error (rh R) h = Some (o, A) -> (A < length (ru R))%nat.
Proof.
  intros (E & nm & F & s & S & _) H. destruct (sm_handle _ _ _ _ _ S h o A H) as (v & A' & _ & HA & _). rewrite <- (sm_la _ _ _ _ _ S). now apply nth_lt in HA.
Qed.

(** What [read] reads is a tree. *)
Lemma live_keys R i t ob ks c tc : live R -> rG R i = Some t -> tvalue t = NCont ob ks -> In c ks -> rG R c = Some tc -> if ob then tkey tc <> None else tkey tc = None.
Proof.
  intros (E & nm & F & s & S & _) Gi V Hc Gc. pose proof (sm_fs _ _ _ _ _ S) as FS. pose proof (i_dom _ _ (sm_inv _ _ _ _ _ S)) as D.
  destruct (fs_node _ _ _ _ FS i t Gi) as (f & Ff & _ & Vf & _). rewrite V in Vf. cbn [vimg] in Vf. destruct (D _ _ Ff) as [D1 _]. destruct (D1 _ _ Vf) as [C _].
  destruct (fs_node _ _ _ _ FS c tc Gc) as (fc & Fc & Kc & _). destruct (chain_in _ _ _ _ (nm c) C) as (fc' & Fc' & _ & Kc'); [now apply in_map|].
  assert (fc' = fc) by congruence. subst fc'. rewrite <- Kc. destruct ob; tauto.
Qed.
Lemma read_tree R : live R -> forall n i j, read n (rG R) i = Some j -> tree (fun x => rG R x <> None) (rG R) j i.
Proof.
  intro L. pose proof (live_shape _ L) as Sh. induction n as [|n IH]; intros i j H; [discriminate|]. cbn [read] in H.
  destruct (rG R i) as [t|] eqn:Gi; [|discriminate]. destruct (tvalue t) as [|b|b|b|ob ks] eqn:V; try (injection H as <-; exists t; auto; fail).
  destruct (mapo _ ks) as [items|] eqn:Em; [|discriminate]. injection H as <-. apply mapo_in in Em.
  assert (K : forall c, In c ks -> exists tc, rG R c = Some tc /\ tpar tc = Some i) by (intros c Hc; apply (sh_kids _ _ Sh i t c Gi); now rewrite V).
  assert (Kk : forall c tc, In c ks -> rG R c = Some tc -> if ob then tkey tc <> None else tkey tc = None) by (intros c tc Hc Gc; exact (live_keys R i t ob ks c tc L Gi V Hc Gc)).
  pose proof (sh_nd _ _ Sh i t Gi) as ND. rewrite V in ND. cbn [nkids] in ND.
  apply (tree_cont _ _ _ ob ks _ t); auto.
  - clear -Em Kk. induction Em as [|c [k x] ks items Hx _ IHl]; [apply Forall_nil|apply Forall_cons; [|apply IHl; intros c' tc' Hc' Gc'; apply (Kk c' tc'); [now right|exact Gc']]].
    destruct (rG R c) as [tc|] eqn:Gc; [|discriminate]. destruct (read n (rG R) c); [|discriminate]. injection Hx as <- <-. cbn [fst]. apply (Kk c tc); [now left|exact Gc].
  - clear -Em K IH. induction Em as [|c [k x] ks items Hx _ IHl]; [apply Forall2_nil|apply Forall2_cons; [|apply IHl; intros; apply K; now right]].
    destruct (K c (or_introl eq_refl)) as (tc & Gc & Pc). rewrite Gc in Hx. destruct (read n (rG R) c) as [y|] eqn:Er; [|discriminate]. injection Hx as <- <-. cbn [fst snd].
    split; [congruence|]. split; [now apply IH|]. exists tc. auto.
Qed.

(** ** The copy in a client *)
Theorem deep_copy {X} len n A As src des i j (k : prog X) R rest : live R -> docs_ok R ->
  nth_error (rh R) src = Some (Some i, As) -> reads_as R i = Some j -> (values j <= n)%nat -> nth_error (rh R) des = Some (None, A) ->
  room R (copy_cost len j + rest) ->
  exists R', runs jd (get_and_set len n A src des k) R k R' /\
    match copied (o_str jd) j with
    | Some j' => nth_error (rh R') des = Some (Some (rn R), A) /\ reads_as R' (rn R) = Some j'
    | None => nth_error (rh R') des = Some (None, A)
    end /\
    (forall x, x < rn R -> rG R' x = rG R x) /\ rn R <= rn R' /\ (forall h, (h < length (rh R))%nat -> h <> des -> nth_error (rh R') h = nth_error (rh R) h) /\
    length (ru R') = length (ru R) /\ room R' rest.
Proof.
  intros L D Hs Er Hn Hd Rm. assert (Ok : json_ok j) by (eapply read_good; [apply (d_good _ D)|exact Er]).
  destruct (all_copies jd J len j n A As src des R None None i (fun x => rG R x <> None) rest k) as (R' & E & Got & Rm'); auto.
  - split; auto.
  - intros ->. congruence.
  - eapply live_ru; eauto.
  - eapply live_ru; eauto.
  - eapply read_tree; eauto.
  - intros x Hx. split; [|discriminate]. apply (sh_lt _ _ (d_shape _ D)). destruct Hx as [Hx|Hx]; [auto|]. subst x. unfold reads_as in Er. cbn [read] in Er. destruct (rG R i); congruence.
  - exists R'. split; auto. destruct (got_frame _ _ _ _ _ _ _ Got) as (F & N & _ & H & U). split; [|split; [intros x Lx; apply F; [auto|discriminate]|auto]].
    destruct (copied (o_str jd) j) as [j'|]; cbn [got] in Got.
    + destruct Got as ([B1 _ _ _ _ _ _ _] & T & Vn). cbn [dnum old] in *. split; [exact B1|]. eapply tree_read; [exact T|]. lia.
    + destruct Got as (_ & _ & -> & _). exact Hd.
Qed.

(** Reading again what was there before. *)
Lemma read_same (G G' : forest) (P : N -> Prop) j i : (forall x, P x \/ x = i -> G' x = G x) -> tree P G j i -> tree P G' j i.
Proof. intros H T. eapply tree_mono; [|apply H; auto|exact T]. intros c Pc. split; auto. Qed.
Lemma reads_again R R' i j : live R -> docs_ok R -> reads_as R i = Some j -> (forall x, x < rn R -> rG R' x = rG R x) -> rn R <= rn R' -> reads_as R' i = Some j.
Proof.
  intros L D Er F N. assert (T : tree (fun x => rG R x <> None) (rG R') j i).
  { eapply read_same; [|eapply read_tree; eauto]. intros x Hx. apply F. apply (sh_lt _ _ (d_shape _ D)). destruct Hx as [Hx|Hx]; [auto|]. subst x. unfold reads_as in Er. cbn [read] in Er. destruct (rG R i); congruence. }
  eapply tree_read; [exact T|]. pose proof (read_few _ _ _ D Er). lia.
Qed.
(** The text of a value that may be empty. *)
Definition oprint (o : option json) : bytes := match o with Some j => print j | None => [] end.
Definition ovalues (o : option json) : nat := match o with Some j => values j | None => 0%nat end.
Lemma step_print R h i A j rest : nth_error (rh R) h = Some (Some i, A) -> reads_as R i = Some j -> json_ok j -> (A < length (ru R))%nat ->
  room R (print_cost (lenN (print j)) + rest) ->
  exists R1, sstep jd (Api (CStringify h)) R = Some (Text (Some (print j)), R1) /\ spasses (Api (CStringify h)) R = (2 * values j)%nat /\
    rG R1 = rG R /\ rn R1 = rn R /\ rh R1 = rh R /\ length (ru R1) = length (ru R) /\ room R1 rest.
Proof.
  intros Hh Er Ok LA Rm. assert (exists t, rG R i = Some t) as (t & Gi) by (unfold reads_as in Er; cbn [read] in Er; destruct (rG R i); [eauto|discriminate]).
  cbn [sstep rstep spasses passes]. unfold inside_of. rewrite (look_some _ _ _ _ _ Hh Gi), Er. unfold copy_text.
  destruct (spend_room R A _ rest Rm LA) as (ru1 & -> & Lu & Ru). cbn [option_map]. rewrite before0_id by (eapply json_text_no0, print_text, Ok).
  eexists. split; [reflexivity|]. split; [reflexivity|]. auto.
Qed.
Lemma step_oprint R h i A o rest :
  match o with Some j => nth_error (rh R) h = Some (Some i, A) /\ reads_as R i = Some j | None => nth_error (rh R) h = Some (None, A) end ->
  (forall j, o = Some j -> json_ok j) -> (A < length (ru R))%nat -> room R (print_cost (lenN (oprint o)) + rest) ->
  exists R1, sstep jd (Api (CStringify h)) R = Some (Text (Some (oprint o)), R1) /\ spasses (Api (CStringify h)) R = (2 * ovalues o)%nat /\
    rG R1 = rG R /\ rn R1 = rn R /\ rh R1 = rh R /\ length (ru R1) = length (ru R) /\ room R1 rest.
Proof.
  intros Ho Ok LA Rm. destruct o as [j|]; cbn [oprint ovalues] in *.
  - destruct Ho as [Hh Er]. exact (step_print R h i A j rest Hh Er (Ok j eq_refl) LA Rm).
  - exists R. cbn [sstep rstep spasses passes]. unfold inside_of. rewrite (look_none _ _ _ Ho). split; [reflexivity|]. split; [reflexivity|]. repeat (split; [reflexivity|]).
    eapply room_less; [exact Rm|lia].
Qed.
End Docs.

(** ** What can be said of the copy *)
Section Copied.
Variable ok : bytes -> bool.
Lemma copied_all : forall j, (forall j', copied ok j = Some j' -> json_ok j -> json_ok j') /\ (ovalues (copied ok j) <= values j)%nat.
Proof.
  induction j as [|b|b|b|l IH|l IH] using json_ind2; (split; [intros j' E H|]); cbn [copied ovalues] in *; try (injection E as <-; exact H); try apply Nat.le_refl.
  - destruct (ok b); [injection E as <-; exact H|discriminate].
  - destruct (ok b); cbn [ovalues values]; lia.
  - injection E as <-. inversion H as [| | | |l' Hl|]; subst. clear H. constructor. induction l as [|x l IHl]; [constructor|].
    inversion IH as [|? ? [Hx _] IH']; subst. inversion Hl as [|? ? Ox Hl']; subst. destruct (copied ok x); [|constructor]. constructor; auto.
  - cbn [values]. apply le_n_S. induction l as [|x l IHl]; [apply Nat.le_refl|]. inversion IH as [|? ? [_ Hx] IH']; subst. specialize (IHl IH').
    cbn [map list_sum fold_right] in *. destruct (copied ok x); cbn [map list_sum fold_right ovalues] in *; unfold list_sum in *; lia.
  - injection E as <-. inversion H as [| | | | |l' Hl]; subst. clear H. constructor. induction l as [|[k x] l IHl]; [constructor|].
    inversion IH as [|? ? [Hx _] IH']; subst. inversion Hl as [|? ? [Ok Ox] Hl']; subst. cbn [fst snd] in *. destruct (ok k); [|constructor]. constructor; [|auto].
    cbn [fst snd]. split; [auto|]. destruct (copied ok x); [auto|constructor].
  - cbn [values]. apply le_n_S. induction l as [|[k x] l IHl]; [apply Nat.le_refl|]. inversion IH as [|? ? [_ Hx] IH']; subst. specialize (IHl IH').
    cbn [snd] in *. cbn [map list_sum fold_right] in *. destruct (ok k); [|apply Nat.le_0_l]. cbn [map list_sum fold_right] in *. pose proof (values_pos x).
    destruct (copied ok x); cbn [values ovalues] in *; unfold list_sum in *; lia.
Qed.
Lemma copied_ok j j' : copied ok j = Some j' -> json_ok j -> json_ok j'.
Proof. apply (proj1 (copied_all j)). Qed.
Lemma copied_values j : (ovalues (copied ok j) <= values j)%nat.
Proof. apply copied_all. Qed.

(** It depends on [ok] only for the strings and keys of documents. *)
Lemma copied_ext (ok' : bytes -> bool) : (forall b, strbody b -> ok b = ok' b) -> forall j, json_ok j -> copied ok j = copied ok' j.
Proof.
  intro K. induction j as [|b|b|b|l IH|l IH] using json_ind2; intro H; cbn [copied]; auto.
  - inversion H; subst. now rewrite K.
  - inversion H as [| | | |l' Hl|]; subst. clear H. do 2 f_equal. induction l as [|x l IHl]; [reflexivity|]. inversion IH; subst. inversion Hl; subst.
    assert (copied ok x = copied ok' x) as -> by auto. destruct (copied ok' x); [|reflexivity]. f_equal. auto.
  - inversion H as [| | | | |l' Hl]; subst. clear H. do 2 f_equal. induction l as [|[k x] l IHl]; [reflexivity|]. inversion IH; subst. inversion Hl as [|? ? [? ?] ?]; subst. cbn [fst snd] in *.
    rewrite (K k) by auto. destruct (ok' k); [|reflexivity]. assert (copied ok x = copied ok' x) as -> by auto. f_equal. auto.
Qed.

(** Nothing is lost where all strings are accepted. *)
Hypothesis right : forall b, strbody b -> (ok b = true <-> ~ e000_escape b).
Lemma copied_settable : forall j, json_ok j -> settable j -> copied ok j = Some j.
Proof.
  induction j as [|b|b|b|l IH|l IH] using json_ind2; intros H St; cbn [copied settable] in *; auto.
  - inversion H; subst. assert (ok b = true) as -> by now apply right. reflexivity.
  - inversion H as [| | | |l' Hl|]; subst. clear H. do 2 f_equal. induction l as [|x l IHl]; [reflexivity|]. inversion IH as [|? ? Hx IH']; subst. inversion Hl; subst.
    rewrite Hx by tauto. f_equal. apply IHl; tauto.
  - inversion H as [| | | | |l' Hl]; subst. clear H. do 2 f_equal. induction l as [|[k x] l IHl]; [reflexivity|]. inversion IH as [|? ? Hx IH']; subst. inversion Hl as [|? ? [? ?] ?]; subst. cbn [fst snd] in *.
    assert (ok k = true) as -> by (apply right; tauto). rewrite Hx by tauto. f_equal. apply IHl; tauto.
Qed.
(** The text gets no longer. *)
Lemma escape_long b : e000_escape b -> 6 <= lenN b.
Proof. intros (x & y & c1 & c2 & c3 & c4 & v & -> & _). unfold lenN. rewrite app_length. cbn [length]. lia. Qed.
Lemma commas_less (l m : list bytes) : Forall2 (fun a b => lenN a <= lenN b) l m -> forall r, lenN (commas l) <= lenN (commas (m ++ r)).
Proof.
  assert (Z : forall m r : list bytes, lenN (commas m) <= lenN (commas (m ++ r))).
  { induction m0 as [|x m0 IHm]; intro r; [cbn [commas]; change (lenN (@nil N)) with 0; lia|]. specialize (IHm r). destruct m0 as [|y m0].
    - destruct r as [|z r]; cbn [app commas]; [lia|]. rewrite lenN_both. lia.
    - cbn [app commas] in *. rewrite !lenN_both, !lenN_more. lia. }
  induction 1 as [|a b l m H H' IH]; intro r; [apply (Z [] r)|]. specialize (IH r). destruct l as [|a' l].
  - inversion H'; subst. etransitivity; [|apply (Z [b] r)]. exact H.
  - inversion H' as [|? b' ? m' _ _]; subst. cbn [app commas] in *. rewrite !lenN_both, !lenN_more. lia.
Qed.
Lemma copied_shorter : forall j, json_ok j -> lenN (oprint (copied ok j)) <= lenN (print j) /\ (copied ok j = None -> 8 <= lenN (print j)).
Proof.
  induction j as [|b|b|b|l IH|l IH] using json_ind2; intro H; cbn [copied oprint]; try (split; [lia|discriminate]).
  - inversion H as [| | |b' Hb| |]; subst. destruct (ok b) eqn:Ob; cbn [oprint]; [split; [lia|discriminate]|]. split; [change (lenN (@nil N)) with 0; lia|]. intros _.
    assert (K : 6 <= lenN b).
    { destruct (N.le_gt_cases 6 (lenN b)) as [K|K]; auto. assert (ok b = true) by (apply right; auto; intro E; apply escape_long in E; lia). congruence. }
    cbn [print]. rewrite lenN_more, lenN_both, lenN_more. lia.
  - split; [|discriminate]. inversion H as [| | | |l' Hl|]; subst. clear H. cbn [print]. rewrite !lenN_more, !lenN_both, !lenN_more. change (lenN (@nil N)) with 0.
    enough (exists m r, map print l = m ++ r /\ Forall2 (fun a b => lenN a <= lenN b)
      (map print ((fix go l := match l with [] => [] | x :: r => match copied ok x with Some y => y :: go r | None => [] end end) l)) m) as (m & r & -> & K).
    { apply (commas_less _ _) with (r := r) in K. apply N.add_le_mono_l, N.add_le_mono_r. exact K. }
    induction l as [|x l IHl]; [exists [], []; split; [reflexivity|constructor]|]. inversion IH as [|? ? Hx IH']; subst. inversion Hl as [|? ? Ox Hl']; subst. destruct (IHl IH' Hl') as (m & r & E & K).
    destruct (Hx Ox) as [Hx' _]. destruct (copied ok x) as [y|]; [|exists [], (map print (x :: l)); split; [reflexivity|constructor]].
    exists (print x :: m), r. cbn [map app]. rewrite E. split; [reflexivity|]. constructor; auto.
  - split; [|discriminate]. inversion H as [| | | | |l' Hl]; subst. clear H. cbn [print]. rewrite !lenN_more, !lenN_both, !lenN_more. change (lenN (@nil N)) with 0.
    match goal with |- context [map ?f l] => set (pr := f) end.
    enough (exists m r, map pr l = m ++ r /\ Forall2 (fun a b => lenN a <= lenN b)
      (map pr ((fix go l := match l with [] => [] | (k, x) :: r => if ok k then (k, match copied ok x with Some y => y | None => JNull end) :: go r else [] end) l)) m) as (m & r & -> & K).
    { apply (commas_less _ _) with (r := r) in K. apply N.add_le_mono_l, N.add_le_mono_r. exact K. }
    induction l as [|[k x] l IHl]; [exists [], []; split; [reflexivity|constructor]|]. inversion IH as [|? ? Hx IH']; subst. inversion Hl as [|? ? [Ok Ox] Hl']; subst. cbn [fst snd] in *. destruct (IHl IH' Hl') as (m & r & E & K).
    destruct (Hx Ox) as [Hx1 Hx2]. destruct (ok k); [|exists [], (map pr ((k, x) :: l)); split; [reflexivity|constructor]].
    exists (pr (k, x) :: m), r. cbn [map app]. rewrite E. split; [reflexivity|]. constructor; [|auto]. unfold pr. rewrite !lenN_more, !lenN_both, !lenN_more.
    destruct (copied ok x) as [y|]; cbn [oprint] in Hx1; [lia|]. specialize (Hx2 eq_refl). change (lenN (print JNull)) with 4. lia.
Qed.
End Copied.
Lemma judge_right jd : correct jd -> forall b, strbody b -> (o_str jd b = true <-> ~ e000_escape b).
Proof. intros J b Hb. rewrite (jd_str _ J), strbody_set_exactly. tauto. Qed.

(** Any client, then the copy; then the copy and any other value are printed. *)
Definition then_copy {X} (p : prog X) (len : bool) (n A src des h : nat) : prog (answer * answer) :=
  pbind p (fun _ => get_and_set len n A src des (Act (Api (CStringify des)) (fun a => Act (Api (CStringify h)) (fun b => Ret (a, b))))).
Theorem copy_after_exactly jd ok {X} (p : prog X) x R len n A As src des i j h ih Ah jh : correct jd -> (forall b, strbody b -> (ok b = true <-> ~ e000_escape b)) -> rplay jd p rstart = Some (x, R) ->
  nth_error (rh R) src = Some (Some i, As) -> reads_as R i = Some j -> (values j <= n)%nat -> nth_error (rh R) des = Some (None, A) ->
  nth_error (rh R) h = Some (Some ih, Ah) -> reads_as R ih = Some jh ->
  (forall u, In u (ru R) -> u + copy_cost len j + print_cost (lenN (print j)) + print_cost (lenN (print jh)) <= two30) ->
  exists f0, forall fuel, (f0 <= fuel)%nat -> exists E s,
    mplay fuel (then_copy p len n A src des h) estart init = Ok (((Text (Some (oprint (copied ok j))), Text (Some (print jh))), E), s).
Proof.
  intros J Kok Hp Hs Er Hn Hd Hh Eh Rm. destruct (client_docs jd J p x R Hp) as [L D].
  assert (Ok : json_ok j) by (eapply read_good; [apply (d_good _ D)|exact Er]). assert (Okh : json_ok jh) by (eapply read_good; [apply (d_good _ D)|exact Eh]).
  assert (copied ok j = copied (o_str jd) j) as ->.
  { apply copied_ext; auto. intros b Hb. pose proof (Kok b Hb). pose proof (judge_right jd J b Hb). destruct (ok b), (o_str jd b); intuition congruence. }
  destruct (copied_shorter (o_str jd) (judge_right jd J) j Ok) as [Sh _].
  set (k := Act (Api (CStringify des)) (fun a => Act (Api (CStringify h)) (fun b => Ret (a, b)))).
  destruct (deep_copy jd J len n A As src des i j k R (print_cost (lenN (oprint (copied (o_str jd) j))) + (print_cost (lenN (print jh)) + 0)) L D Hs Er Hn Hd) as (R1 & [E1 _] & Hc & F1 & N1 & Hh1 & U1 & Rm1).
  { intros u Hu. specialize (Rm u Hu). unfold print_cost in *. lia. }
  destruct (step_oprint jd R1 des (rn R) A (copied (o_str jd) j) (print_cost (lenN (print jh)) + 0) Hc) as (R2 & E2 & _ & G2 & N2 & H2 & U2 & Rm2); [intros j' Ej; eapply copied_ok; eauto|rewrite U1; eapply live_ru; eauto|exact Rm1|].
  destruct (step_print jd R2 h ih Ah jh 0) as (R3 & E3 & _); auto.
  - rewrite H2, Hh1; [exact Hh|now apply nth_lt in Hh|congruence].
  - eapply reads_again; eauto; [rewrite G2; auto|lia].
  - rewrite U2, U1. eapply live_ru; eauto.
  - assert (Hr : rplay jd (then_copy p len n A src des h) rstart = Some ((Text (Some (oprint (copied (o_str jd) j))), Text (Some (print jh))), R3)).
    { unfold then_copy. rewrite rplay_bind, Hp. fold k. rewrite E1. unfold k. cbn [rplay]. now rewrite E2, E3. }
    eexists. intros fuel Hf. destruct (client jd J _ _ _ _ Hr fuel Hf) as (E & s & Em & _). eauto.
Qed.
Theorem copy_after jd {X} (p : prog X) x R len n A As src des i j h ih Ah jh : correct jd -> rplay jd p rstart = Some (x, R) ->
  nth_error (rh R) src = Some (Some i, As) -> reads_as R i = Some j -> settable j -> (values j <= n)%nat -> nth_error (rh R) des = Some (None, A) ->
  nth_error (rh R) h = Some (Some ih, Ah) -> reads_as R ih = Some jh ->
  (forall u, In u (ru R) -> u + copy_cost len j + print_cost (lenN (print j)) + print_cost (lenN (print jh)) <= two30) ->
  exists f0, forall fuel, (f0 <= fuel)%nat -> exists E s,
    mplay fuel (then_copy p len n A src des h) estart init = Ok (((Text (Some (print j)), Text (Some (print jh))), E), s).
Proof.
  intros J Hp Hs Er St Hn Hd Hh Eh Rm. destruct (client_docs jd J p x R Hp) as [_ D].
  assert (Ok : json_ok j) by (eapply read_good; [apply (d_good _ D)|exact Er]).
  pose proof (copy_after_exactly jd (o_str jd) p x R len n A As src des i j h ih Ah jh J (judge_right jd J) Hp Hs Er Hn Hd Hh Eh Rm) as K.
  now rewrite (copied_settable (o_str jd) (judge_right jd J) j Ok St) in K.
Qed.

(** ** The samples *)
(** What the copy costs, in terms of the text. *)
Definition cost_rate (len : bool) : N := if len then 233 else 74.
Lemma text_rate len b : text_cost len b + (if len then 5 else 1) <= cost_rate len * (lenN b + 1).
Proof. unfold text_cost, cost_rate, check_cost. destruct len; lia. Qed.
Lemma commas_lenN l : lenN (commas l) + 1 = fold_right (fun t n => lenN t + 1 + n) 0 l + (match l with [] => 1 | _ => 0 end).
Proof.
  induction l as [|x r IH]; [reflexivity|]. destruct r as [|y r]; [cbn [commas fold_right]; lia|].
  change (commas (x :: y :: r)) with (x ++ 44 :: commas (y :: r)). rewrite lenN_both, lenN_more. cbn [fold_right] in *. lia.
Qed.
Lemma items_print len (f : option bytes * json -> bytes) items :
  (forall kj, In kj items -> 74 + (match fst kj with Some k => text_cost len k | None => 0 end) + copy_cost len (snd kj) <= cost_rate len * (lenN (f kj) + 1)) ->
  88 + items_cost len items <= cost_rate len * (lenN (commas (map f items)) + 2).
Proof.
  intro H. pose proof (commas_lenN (map f items)) as L.
  assert (K : items_cost len items + (match items with [] => 0 | _ => 42 end) <= cost_rate len * fold_right (fun t n => lenN t + 1 + n) 0 (map f items)).
  { clear L. induction items as [|kj items IH]; [cbn; lia|]. specialize (IH (fun x Hx => H x (or_intror Hx))). pose proof (H kj (or_introl eq_refl)) as Hk.
    unfold items_cost in *. cbn [fold_right map]. destruct items; lia. }
  assert (74 <= cost_rate len) by (unfold cost_rate; destruct len; lia).
  destruct items as [|kj items]; [change (items_cost len []) with 0; cbn [map commas]; change (lenN (@nil N)) with 0; lia|]. cbn [map] in *. lia.
Qed.
Lemma cost_print len : forall j, json_ok j -> copy_cost len j <= cost_rate len * lenN (print j).
Proof.
  assert (H74 : 74 <= cost_rate len) by (unfold cost_rate; destruct len; lia).
  induction j as [|b|b|b|l IH|l IH] using json_ind2; intro Ok.
  - destruct len; vm_compute; discriminate.
  - destruct b, len; vm_compute; discriminate.
  - inversion Ok as [| |b' Hb| | |]; subst. apply number_long in Hb. cbn [copy_cost print]. assert (1 <= lenN b) by (unfold lenN; lia).
    unfold text_cost, cost_rate, check_cost. destruct len; lia.
  - cbn [copy_cost print]. rewrite lenN_more, lenN_both, lenN_more. pose proof (text_rate len b). unfold cost_rate in *. destruct len; lia.
  - rewrite arr_cost. cbn [print]. rewrite lenN_more, lenN_both, lenN_more. change (lenN (@nil N)) with 0.
    replace (map print l) with (map (fun kj => print (snd kj)) (arr_items l)) by (unfold arr_items; rewrite map_map; apply map_ext; auto).
    etransitivity; [apply (items_print len (fun kj => print (snd kj)))|lia]. intros kj Hk. apply in_map_iff in Hk as (x & <- & Hx). cbn [fst snd].
    inversion Ok as [| | | |? Hl|]; subst. rewrite Forall_forall in IH, Hl. specialize (IH x Hx (Hl x Hx)). lia.
  - rewrite obj_cost. cbn [print]. rewrite lenN_more, lenN_both, lenN_more. change (lenN (@nil N)) with 0.
    match goal with |- context [map ?f l] => replace (map f l) with (map (fun kj => 34 :: okey (fst kj) ++ 34 :: 58 :: print (snd kj)) (obj_items l))
      by (unfold obj_items; rewrite map_map; apply map_ext; now intros [k x]) end.
    etransitivity; [apply (items_print len (fun kj => 34 :: okey (fst kj) ++ 34 :: 58 :: print (snd kj)))|match goal with |- _ * (?a + 2) <= _ * (1 + (?b + (1 + 0))) => change b with a; generalize a; intro; lia end].
    intros kj Hk. apply in_map_iff in Hk as (x & <- & Hx). cbn [fst snd okey].
    inversion Ok as [| | | | |? Hl]; subst. rewrite Forall_forall in IH, Hl. specialize (IH x Hx (proj2 (Hl x Hx))). rewrite lenN_more, lenN_both, !lenN_more.
    pose proof (text_rate len (fst x)). lia.
Qed.

(** main, sample/c/sample.c:77-101 and sample/c++/sample.cpp:93-115, without the printf and
    the release: two values, ParseFast, GetAndSet, Stringify.  [None]: the text was refused. *)
Definition sample_parse (t : bytes) : prog answer :=
  Act (Api CNewAllocator) (fun _ => Act (Api (CNewValue 0)) (fun _ => Act (Api (CNewValue 0)) (fun _ => Act (Api (CParse PFast 0 t [])) (fun a => Ret a)))).
Definition sample_main (len : bool) (n : nat) (t : bytes) : prog (option answer) :=
  pbind (sample_parse t) (fun a =>
    match a with
    | Bool true => get_and_set len n 0 0 1 (Act (Api (CStringify 1)) (fun a => Ret (Some a)))
    | Bool false => Ret None
    | _ => Stuck
    end).
Lemma pmost_bind jd {X Y} (f : X -> prog Y) : forall p R x R1, rplay jd p R = Some (x, R1) -> pmost jd (pbind p f) R = Nat.max (pmost jd p R) (pmost jd (f x) R1).
Proof.
  induction p as [x0| |c k IH]; intros R x R1 H; cbn [pbind rplay pmost] in *; [injection H as <- <-; lia|discriminate|].
  destruct (sstep jd c R) as [[a R2]|]; [|discriminate]. rewrite (IH _ _ _ _ H). lia.
Qed.
Lemma sample_parsed jd t : correct jd -> ~ In 0 t -> ~ cut_literal t 0 -> 72 * lenN t + 176 <= two30 ->
  exists R, rplay jd (sample_parse t) rstart = Some (Bool (is_some (o_json jd t)), R) /\ pmost jd (sample_parse t) rstart = 0%nat /\ ru R = [72 * lenN t + 176] /\
    forall j, o_json jd t = Some j -> exists k, nth_error (rh R) 0 = Some (Some 0, 0%nat) /\ read k (rG R) 0 = Some j /\ nth_error (rh R) 1 = Some (None, 0%nat).
Proof.
  intros J N0 Nc Hc. set (R3 := mkR noforest 0 [(None, 0%nat); (None, 0%nat)] [32]).
  assert (S : spend R3 0 (72 * (lenN t + 2)) = Some (mkR noforest 0 [(None, 0%nat); (None, 0%nat)] [72 * lenN t + 176])).
  { unfold spend. cbn [R3 ru nth_error]. assert (32 + 72 * (lenN t + 2) <=? two30 = true) as -> by (apply N.leb_le; lia). cbn [rG rn rh setn R3]. do 3 f_equal. lia. }
  set (R4 := mkR noforest 0 [(None, 0%nat); (None, 0%nat)] [72 * lenN t + 176]) in *.
  assert (Cj : o_cut jd t 0 = false) by (destruct (o_cut jd t 0) eqn:Bc; auto; exfalso; apply Nc; now apply (jd_cut _ J)).
  assert (Ft : fits (t ++ [0]) = true).
  { unfold fits. apply N.ltb_lt. rewrite lenN_app1. change two30 with 1073741824 in Hc. change two32 with 4294967296. lia. }
  assert (E : sstep jd (Api (CParse PFast 0 t [])) R3 = match o_json jd t with Some j => Some (Bool true, sealed R4 None (assign R4 0 None j)) | None => Some (Bool false, R4) end).
  { cbn [sstep rstep]. change (look R3 0) with (Some (@None (N * tnode), 0%nat)). cbv beta iota. cbn [length]. rewrite (no0_ok t N0), Ft, Cj. cbn [andb negb]. now rewrite S. }
  assert (Pre : forall X (k : answer -> prog X), rplay jd (Act (Api CNewAllocator) (fun _ => Act (Api (CNewValue 0)) (fun _ => Act (Api (CNewValue 0)) (fun _ => Act (Api (CParse PFast 0 t [])) k)))) rstart
    = rplay jd (Act (Api (CParse PFast 0 t [])) k) R3 /\ pmost jd (Act (Api CNewAllocator) (fun _ => Act (Api (CNewValue 0)) (fun _ => Act (Api (CNewValue 0)) (fun _ => Act (Api (CParse PFast 0 t [])) k)))) rstart
    = pmost jd (Act (Api (CParse PFast 0 t [])) k) R3) by (intros; split; reflexivity).
  destruct (Pre _ (fun a => Ret a)) as [P1 P2]. unfold sample_parse. rewrite P1, P2. clear Pre P1 P2. cbn [rplay pmost]. rewrite E. destruct (o_json jd t) as [j|]; cbn [is_some].
  - exists (sealed R4 None (assign R4 0 None j)). split; auto. split; [reflexivity|].
    destruct (assign_new R4 0 None 0 j eq_refl) as (tm & k & L4 & E4 & U4).
    split; [exact U4|]. intros j' Hj. injection Hj as <-. exists k. rewrite read_sealed.
    change (rh (sealed R4 None (assign R4 0 None j))) with (rh (assign R4 0 None j)).
    split; [|split; [exact E4|]]; unfold assign; destruct (plant _ _ _) as [[v g] n']; reflexivity.
  - exists R4. split; auto. split; [reflexivity|]. split; [reflexivity|]. intros j Hj. discriminate.
Qed.
Theorem main_exactly ok len t j : (forall b, strbody b -> (ok b = true <-> ~ e000_escape b)) -> json_text t j -> lenN t <= 3000000 ->
  forall n, (length t <= n)%nat -> forall fuel, (2 * length t <= fuel)%nat ->
  exists E s, mplay fuel (sample_main len n t) estart init = Ok ((Some (Text (Some (oprint (copied ok j)))), E), s).
Proof.
  intros Kok P Ht n Hn fuel Hf. pose proof judge_correct as J. set (jd := the_judge) in *. clearbody jd.
  pose proof (json_text_no0 _ _ P) as N0. assert (Oj : o_json jd t = Some j) by (now apply (jd_json _ J)).
  assert (Nc : ~ cut_literal t 0) by (intro K; exact (OverRead.cut_invalid _ _ K N0 (ex_intro _ j P))).
  assert (Ok : json_ok j) by (eapply json_text_ok; eauto). pose proof (print_shorter t j P) as Lp. pose proof (values_text t j P) as Vt.
  assert (copied ok j = copied (o_str jd) j) as ->.
  { apply copied_ext; auto. intros b Hb. pose proof (Kok b Hb). pose proof (judge_right jd J b Hb). destruct (ok b), (o_str jd b); intuition congruence. }
  destruct (copied_shorter (o_str jd) (judge_right jd J) j Ok) as [Sh _]. pose proof (copied_values (o_str jd) j) as Vc.
  destruct (sample_parsed jd t J N0 Nc) as (R & Hp & Hm & Hu & HR); [unfold two30; lia|]. rewrite Oj in Hp. cbn [is_some] in Hp. destruct (HR j Oj) as (k & H0 & Er & H1).
  destruct (client_docs jd J _ _ _ Hp) as [L D]. pose proof (docs_reads _ _ _ _ D Er) as Er'.
  set (kk := Act (Api (CStringify 1)) (fun a => Ret (Some a))).
  destruct (deep_copy jd J len n 0 0 0 1 0 j kk R (print_cost (lenN (oprint (copied (o_str jd) j))) + 0) L D H0 Er') as (R1 & [E1 M1] & Hc & _ & _ & _ & U1 & Rm1); auto; [lia| |].
  { intros u Hu'. rewrite Hu in Hu'. destruct Hu' as [<-|[]]. pose proof (cost_print len j Ok) as K. assert (cost_rate len <= 233) by (unfold cost_rate; destruct len; lia).
    assert (copy_cost len j <= 233 * lenN t) by nia. unfold print_cost, two30. lia. }
  destruct (step_oprint jd R1 1 (rn R) 0 (copied (o_str jd) j) 0 Hc) as (R2 & E2 & M2 & _); [intros j' Ej; eapply copied_ok; eauto|rewrite U1, Hu; cbn; lia|exact Rm1|].
  assert (Hr : rplay jd (sample_main len n t) rstart = Some (Some (Text (Some (oprint (copied (o_str jd) j)))), R2)).
  { unfold sample_main. rewrite rplay_bind, Hp. cbv beta iota. fold kk. rewrite E1. unfold kk. cbn [rplay]. now rewrite E2. }
  destruct (client jd J _ _ _ _ Hr fuel) as (E & s & Em & _); [|eauto].
  unfold sample_main. rewrite (pmost_bind jd _ _ _ _ _ Hp), Hm. cbv beta iota. fold kk. rewrite M1. unfold kk. cbn [pmost]. rewrite E2, M2. cbn [pmost]. lia.
Qed.
Theorem main_copies len t j : json_text t j -> settable j -> lenN t <= 3000000 ->
  forall n, (length t <= n)%nat -> forall fuel, (2 * length t <= fuel)%nat ->
  exists E s, mplay fuel (sample_main len n t) estart init = Ok ((Some (Text (Some (print j))), E), s).
Proof.
  intros P St Ht n Hn fuel Hf. pose proof (main_exactly (o_str the_judge) len t j (judge_right _ judge_correct) P Ht n Hn fuel Hf) as K.
  rewrite (copied_settable (o_str the_judge) (judge_right _ judge_correct) j) in K; [exact K|eapply json_text_ok; eauto|exact St].
Qed.
(** A text that is no JSON is refused. *)
Theorem main_refuses len t : ~ In 0 t -> (forall j, ~ json_text t j) -> ~ cut_literal t 0 -> 72 * lenN t + 176 <= two30 ->
  forall n fuel, exists E s, mplay fuel (sample_main len n t) estart init = Ok ((None, E), s).
Proof.
  intros N0 Nj Nc Hc n fuel. pose proof judge_correct as J. set (jd := the_judge) in *. clearbody jd.
  destruct (sample_parsed jd t J N0 Nc Hc) as (R & Hp & Hm & _).
  assert (Oj : o_json jd t = None) by (destruct (o_json jd t) as [j|] eqn:E; auto; apply (jd_json _ J) in E; auto; now elim (Nj j)). rewrite Oj in Hp. cbn [is_some] in Hp.
  assert (Hr : rplay jd (sample_main len n t) rstart = Some (None, R)) by (unfold sample_main; now rewrite rplay_bind, Hp).
  destruct (client jd J _ _ _ _ Hr fuel) as (E & s & Em & _); [|eauto]. unfold sample_main. rewrite (pmost_bind jd _ _ _ _ _ Hp), Hm. cbn [pmost]. lia.
Qed.

(** Deciding [settable]. *)
Fixpoint settableb (j : json) : bool :=
  match j with
  | JStr b => o_str the_judge b
  | JArr l => forallb settableb l
  | JObj l => forallb (fun kx => let '(k, x) := kx in o_str the_judge k && settableb x) l
  | _ => true
  end.
Lemma settableb_ok : forall j, settableb j = true -> settable j.
Proof.
  assert (K : forall b, o_str the_judge b = true -> ~ e000_escape b) by (intros b H; apply (jd_str _ judge_correct) in H; now apply strbody_set_exactly in H).
  induction j as [|b|b|b|l IH|l IH] using json_ind2; cbn [settableb settable]; auto; intro H.
  - induction l as [|x l IHl]; [exact Logic.I|]. cbn [forallb] in H. apply andb_prop in H as [H1 H2]. inversion IH as [|? ? I1 I2]; subst. split; [exact (I1 H1)|exact (IHl I2 H2)].
  - induction l as [|[k x] l IHl]; [exact Logic.I|]. cbn [forallb] in H. apply andb_prop in H as [H1 H2]. apply andb_prop in H1 as [H0 H1]. inversion IH as [|? ? I1 I2]; subst.
    split; [split; [exact (K k H0)|exact (I1 H1)]|exact (IHl I2 H2)].
Qed.
