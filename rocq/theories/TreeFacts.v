(** Copying, moving, adding, assigning, deleting: the lemmas behind the properties. *)
From Verif Require Import Base Spec Lex LexProofs Alloc AllocProofs Mem MemProofs Api PureParse SpecProofs
  Dom Effect Steps SetProofs StringifyProofs ParseTop GetProofs CopyProofs LinkProofs MoveProofs Vocab ParseFacts PrintFacts ReadFacts SetFacts.

(** ** The effects, in terms of the JSON value *)
Definition remove_nth {X} (i : nat) (l : list X) : list X := firstn i l ++ skipn (S i) l.
(** [j] without its i-th child. *)
Definition jdel (i : nat) (j : json) : json :=
  match j with
  | JArr l => JArr (remove_nth i l)
  | JObj l => JObj (remove_nth i l)
  | _ => j
  end.
(** [j] with one more child at the end (the key counts for objects only). *)
Definition jadd (k : option bytes) (x j : json) : json :=
  match j with
  | JArr l => JArr (l ++ [x])
  | JObj l => JObj (l ++ [(okey k, x)])
  | _ => j
  end.
(** ** The effects, in terms of the documents *)
(** The documents [F] have become [F'] by giving node [a] the content [jn]: a value
    that contains [a] at position [p] has [jn] there and is otherwise as before; a
    value that does not contain [a] is as before; keys are as before.  The nodes of
    [D] are gone, and nothing is said of the keys of the nodes of [K]. *)
Record redrawn (K D : addr -> Prop) (F : dom) (a : addr) (jn : json) (F' : dom) : Prop := {
  rw_at : reads F' a jn;
  rw_above : forall b p ju, path F b p a -> reads F b ju -> (forall d, below F b d -> ~ D d) -> reads F' b (jset p jn ju);
  rw_beside : forall b ju, reads F b ju -> ~ below F b a -> (forall d, below F b d -> ~ D d) -> reads F' b ju;
  rw_keys : forall x f, F x = Some f -> ~ D x -> ~ K x -> exists f', F' x = Some f' /\ fkey f' = fkey f
}.
Definition root (F : dom) (a : addr) : Prop := exists f, F a = Some f /\ fpar f = None.
Definition key_at (F : dom) (a : addr) (k : option bytes) : Prop := exists f, F a = Some f /\ fkey f = k.
(** Node [c] is child number [i] of node [p]. *)
Definition kid_at (F : dom) (p : addr) (i : nat) (c : addr) : Prop :=
  exists f ob kids, F p = Some f /\ fvalue f = VCont ob kids /\ nth_error kids i = Some c.
(** The link from child number [i] to its predecessor is right; the link from
    the container to its last child is right.  (Both hold in every tidy container.) *)
Definition prev_ok (F : dom) (p : addr) (i : nat) : Prop :=
  forall f ob kids c fc, F p = Some f -> fvalue f = VCont ob kids -> nth_error kids i = Some c -> F c = Some fc ->
    fprev fc = last_error (firstn i kids).
Definition end_ok (F : dom) (a : addr) : Prop :=
  forall f ob kids, F a = Some f -> fvalue f = VCont ob kids -> kids <> [] -> fend f = last_error kids.
(** Node [c] can be taken out: it is a root, or the link to its predecessor is right. *)
Definition movable (F : dom) (c : addr) : Prop :=
  root F c \/ exists p i jp, kid_at F p i c /\ reads F p jp /\ prev_ok F p i.
(** [F1] is [F] with [c] (content [jc]) taken out of its parent, if it has one.
    Links that were right still are, except in the parent if [c] was not its first child. *)
Definition taken_out (F : dom) (c : addr) (jc : json) (F1 : dom) : Prop :=
  root F1 c /\ reads F1 c jc /\
  ((root F c /\ F1 = F) \/
   exists p i k jp, kid_at F p i c /\ reads F p jp /\ nth_error (items jp) i = Some (k, jc) /\
     redrawn none none F p (jdel i jp) F1) /\
  (forall x, F x <> None -> tidy F x -> (forall i, ~ kid_at F x (S i) c) -> tidy F1 x).
(** [c] is the last one of several children of [a]. *)
Definition last_kid (F : dom) (a c : addr) : Prop :=
  exists f ob l, F a = Some f /\ fvalue f = VCont ob (l ++ [c]) /\ l <> [].
(** [c] is the only child of [a]. *)
Definition only_kid (F : dom) (a c : addr) : Prop := exists f ob, F a = Some f /\ fvalue f = VCont ob [c].

Section WithVol.
Context {VV : vols}.

(** ** The effects, in terms of the program state *)
(** As [redrawn]; and every value object outside [U] stands for the same node as before. *)
Record edits (U K D : addr -> Prop) (s : st) (F : dom) (a : addr) (jn : json) (s' : st) (F' : dom) : Prop := {
  ed_inv : inv s' F';
  ed_draw : redrawn K D F a jn F';
  ed_handles : forall u w B, ~ U u -> handle s F u w B -> (forall d, w = At d -> ~ D d) -> handle s' F' u w B
}.

(** ** Lists and trees *)
Lemma firstn_cut {X} (l : list X) x r i : length l = i -> firstn i (l ++ x :: r) = l.
Proof. intros <-. rewrite firstn_app, Nat.sub_diag, firstn_all, firstn_O. apply app_nil_r. Qed.
Lemma remove_cut {X} (l : list X) x r i : length l = i -> remove_nth i (l ++ x :: r) = l ++ r.
Proof.
  intros E. unfold remove_nth. rewrite firstn_cut; auto. f_equal. subst i. rewrite skipn_app, skipn_all2 by lia.
  replace (S (length l) - length l)%nat with 1%nat by lia. reflexivity.
Qed.
Lemma remove_map {X Y} (g : X -> Y) i l : map g (remove_nth i l) = remove_nth i (map g l).
Proof. unfold remove_nth. now rewrite map_app, firstn_map, skipn_map. Qed.
Lemma jdel_container ob it i : jdel i (container ob it) = container ob (remove_nth i it).
Proof. destruct ob; cbn [jdel container]; now rewrite remove_map. Qed.
Lemma jadd_container ob it k x : jadd k x (container ob it) = container ob (it ++ [(k, x)]).
Proof. destruct ob; cbn [jadd container]; now rewrite map_app. Qed.
Lemma tidy_prev F p i : tidy F p -> prev_ok F p i.
Proof.
  intros T f ob kids c fc Hp Hv Hn Hc. destruct (T f ob kids Hp Hv) as [_ P]. clear - P Hn Hc.
  assert (G : forall q, prevs F q kids -> fprev fc = match last_error (firstn i kids) with Some y => Some y | None => q end).
  { clear P. revert i Hn. induction kids as [|x r IH]; intros i Hn q P; [destruct i; discriminate|].
    cbn in P. destruct P as [(fx & Ex & Px) P]. destruct i as [|i]; cbn [nth_error] in Hn.
    - injection Hn as ->. cbn. congruence.
    - specialize (IH i Hn _ P). rewrite IH. cbn [firstn]. change (x :: firstn i r) with ([] ++ x :: firstn i r). rewrite last_app. now destruct (last_error (firstn i r)). }
  specialize (G None P). rewrite G. now destruct (last_error (firstn i kids)).
Qed.
Lemma tidy_end F a : tidy F a -> end_ok F a.
Proof. intros T f ob kids Hp Hv _. now destruct (T f ob kids Hp Hv). Qed.
Lemma reads_cont F a j f ob kids : reads F a j -> F a = Some f -> fvalue f = VCont ob kids ->
  exists it, j = container ob it /\ readsL F kids it.
Proof.
  intros R Ha Hv. inversion R as [? f0 E1 E2|? f0 ? E1 E2|? f0 ? E1 E2|? f0 ? E1 E2|? f0 ob0 kids0 it E1 E2 Rl]; subst;
    try (exfalso; congruence). assert (f0 = f) by congruence. subst f0. rewrite Hv in E2. injection E2 as <- <-. now exists it.
Qed.
Lemma not_own_kid F a j f ob kids : reads F a j -> F a = Some f -> fvalue f = VCont ob kids -> ~ In a kids.
Proof.
  intros R Ha Hv K. apply (proj1 (reads_acyclic F) a j R). exists f, ob, kids, a. split; auto. split; auto. split; auto. constructor.
Qed.

Lemma redrawn_intro (K D : addr -> Prop) F a jn F' : wfdom F -> changed D F F' a -> reads F' a jn ->
  (forall x f, F x = Some f -> ~ D x -> ~ K x -> exists f', F' x = Some f' /\ fkey f' = fkey f) -> redrawn K D F a jn F'.
Proof.
  intros W C R Hk. constructor; auto.
  - intros b p ju P Rb N. eapply (changed_path D F F' a jn); eauto.
  - intros b ju Rb N N'. eapply (changed_frame D F F' a); eauto.
Qed.
Lemma edits_intro (U K D Dn Dv : addr -> Prop) c s F a jn s' F' : inv s F -> inv s' F' -> changed D F F' a -> reads F' a jn ->
  (forall x f, F x = Some f -> ~ D x -> ~ K x -> exists f', F' x = Some f' /\ fkey f' = fkey f) ->
  ext Dn Dv c s s' -> (forall u x, ~ U u -> svals s u = Some x -> svals s' u = Some x) -> edits U K D s F a jn s' F'.
Proof.
  intros I I' C R Hk X Hs. constructor; auto; [apply redrawn_intro; auto; apply I|].
  intros u w B Nu (H1 & [H2 H3] & H4) Nd. split; [now apply Hs|]. split; [split; auto; now apply (x_alive _ _ _ _ _ X)|].
  destruct H4 as [H4|(x & E & Hx)]; [now left|]. right. exists x. split; auto. destruct (F x) as [f|] eqn:Ex; [|congruence].
  destruct (C x f Ex (Nd x E)) as (f' & E' & _). congruence.
Qed.

(** *** Taking out *)
Lemma split_at {X} (l : list X) i x : nth_error l i = Some x -> exists a b, l = a ++ x :: b /\ length a = i.
Proof. intro H. destruct (nth_error_split _ _ H) as (a & b & E & L). now exists a, b. Qed.
Lemma kid_removed F p i c jp : wfdom F -> kid_at F p i c -> reads F p jp -> prev_ok F p i ->
  exists F' k jc, removed F c F' /\ changed none F F' p /\ reads F' p (jdel i jp) /\ reads F c jc /\ reads F' c jc /\
    nth_error (items jp) i = Some (k, jc) /\ (forall x, x <> p \/ i = O -> F x <> None -> tidy F x -> tidy F' x).
Proof.
  intros W (fp & ob & kids & Hp & Hv & Hn) R P. destruct (split_at kids i c Hn) as (l & r & -> & El).
  assert (Nin : ~ In p (l ++ c :: r)) by (eapply not_own_kid; eauto).
  assert (Kc : In c (l ++ c :: r)) by (apply in_app_iff; right; now left).
  destruct (child_par F p c W) as (fc & Fc & Pc); [exists fp, ob, (l ++ c :: r); auto|].
  assert (Pr : fprev fc = last_error l).
  { rewrite (P fp ob _ c fc Hp Hv Hn Fc), firstn_cut; auto. }
  exists (unlink F c p fc fp ob l r).
  destruct (unlink_reads F c p fc fp ob l r W Fc Hp Hv Nin jp R) as (il & jc & ir & -> & Eil & R1 & R2 & R3).
  exists (fkey fc), jc. split; [econstructor; eauto|]. split; [eapply unlink_changed; eauto|].
  split. { rewrite jdel_container, remove_cut by congruence. exact R1. }
  split; auto. split; auto. split.
  - destruct (reads_cont F p _ fp ob _ R Hp Hv) as (it & E & Rl).
    assert (Ei : nth_error (il ++ (fkey fc, jc) :: ir) i = Some (fkey fc, jc)).
    { rewrite nth_error_app2 by lia. replace (i - length il)%nat with O by lia. reflexivity. }
    assert (Kk : if ob then fkey fc <> None else fkey fc = None).
    { destruct (proj1 (W p fp Hp) ob _ Hv) as [C _]. clear - C Fc.
      assert (G : chain F p ob (c :: r)) by (clear - C; induction l as [|x l IH]; cbn in C; [exact C|apply IH, C]).
      destruct G as [(f & E & _ & _ & K) _]. replace fc with f by congruence. exact K. }
    destruct ob; cbn [container items]; rewrite map_map, nth_error_map, Ei; cbn; destruct (fkey fc); auto; try discriminate. now elim Kk.
  - intros x Hx Dx T. eapply unlink_tidy; eauto. destruct Hx as [|E0]; auto. right. destruct l; auto. cbn in El. lia.
Qed.
Lemma movable_removed F c jc : wfdom F -> movable F c -> reads F c jc -> exists F1, removed F c F1 /\ taken_out F c jc F1.
Proof.
  intros W [(f & Fc & Pc)|(p & i & jp & Hk & R & P)] Rc.
  - exists F. split; [econstructor; eauto|]. split; [now exists f|]. split; auto. split; auto. left. split; auto. now exists f.
  - destruct (kid_removed F p i c jp W Hk R P) as (F1 & k & jc' & Rm & Ch & R1 & R2 & R3 & E & T).
    assert (jc' = jc) by (eapply (reads_det F c); eauto). subst jc'. exists F1. split; auto.
    split; [|split; auto; split; [right; exists p, i, k, jp; split; auto; split; auto; split; auto|]].
    + destruct (removed_root F c F1 W Rm) as (f & f' & _ & E' & _ & _ & _ & E'' & _). now exists f'.
    + apply redrawn_intro; auto. intros x f Hx _ _. eapply removed_keys; eauto.
    + intros x Dx Tx Nk. apply T; auto. destruct (addr_dec x p) as [->|]; auto. right. destruct i; auto. now elim (Nk i).
Qed.
Lemma move_exact s F v a A p i jp : inv s F -> on s F v a A -> kid_at F p i a -> reads F p jp -> prev_ok F p i ->
  exists s' F' k ja, zj_Move v s = Ok (true, s') /\ nth_error (items jp) i = Some (k, ja) /\
    edits none none none s F p (jdel i jp) s' F' /\ root F' a /\ reads F' a ja /\
    (forall x, x <> p \/ i = O -> F x <> None -> tidy F x -> tidy F' x).
Proof.
  intros I H Hk R P. destruct (kid_removed F p i a jp (i_dom _ _ I) Hk R P) as (F1 & k & ja & Rm & Ch & R1 & R2 & R3 & E & T).
  destruct (move_wp s F v a A F1 I H Rm) as (r & s' & Er & -> & I' & M & X).
  exists s', F1, k, ja. split; auto. split; auto. split; [|split; [|split; auto]].
  - eapply edits_intro; eauto.
    + intros x f Hx _ _. eapply removed_keys; eauto. apply I.
    + intros u x _ Hu. eapply (x_vals _ _ _ _ _ X); eauto.
  - destruct (removed_root F a F1 (i_dom _ _ I) Rm) as (f & f' & _ & E' & _ & _ & _ & E'' & _). now exists f'.
Qed.
Lemma move_root s F v a A : inv s F -> on s F v a A -> root F a ->
  exists s', zj_Move v s = Ok (true, s') /\ untouched s F s'.
Proof.
  intros I H (f & Fa & Pa). destruct (move_wp s F v a A F I H) as (r & s' & E & -> & I' & M & X); [now apply (rm_free F a f)|].
  exists s'. split; auto. split; auto. intros u w B (H1 & [H2 N2] & H3). split; [|split; [split|]]; auto.
  - now apply (x_vals _ _ _ _ _ X).
  - now apply (x_alive _ _ _ _ _ X).
Qed.
Lemma move_none s F v A : empty s F v A -> zj_Move v s = Ok (false, s).
Proof. intro H. destruct (move_empty s F v A H) as (r & s' & E & -> & ->). exact E. Qed.

(** *** Copy *)
(** A new root [n] with the content and key of [b]; it shares no node with any
    earlier value, and every earlier value is as before. *)
Record cloned (F : dom) (b : addr) (j : json) (F' : dom) (n : addr) : Prop := {
  cl_new : F n = None;
  cl_root : root F' n;
  cl_reads : reads F' n j;
  cl_key : forall k, key_at F b k -> key_at F' n k;
  cl_apart : forall x, below F' n x -> F x = None;
  cl_old : forall x f, F x = Some f -> F' x = Some f;
  cl_tidy : forall x, F' x <> None -> (F x <> None -> tidy F x) -> tidy F' x
}.
Lemma copied_cloned s F b j s1 F1 n : inv s F -> copied_node s F b j s1 F1 n -> cloned F b j F1 n.
Proof.
  intros I C. destruct (cp_root _ _ _ _ _ _ _ C) as (f & f' & E1 & E2 & Ek & Ep & _).
  constructor.
  - eapply inv_beyond; eauto. apply C.
  - now exists f'.
  - apply C.
  - intros k (f0 & Ef & <-). exists f'. split; auto. congruence.
  - intros x Hx. eapply copied_below; eauto.
  - intros x f0 Hx. eapply cp_sub; eauto.
  - intros x Hx T. destruct (F x) eqn:Ex; [|eapply cp_tidy; eauto]. eapply cp_tidy_old; eauto; [congruence|]. apply T. congruence.
Qed.
Lemma copy_exact s F v a A j f : inv s F -> on s F v a A -> reads F a j -> F a = Some f ->
  room s A (88 + icost (fkey f, j)) -> forall fuel, (S (jsteps j) <= fuel)%nat ->
  exists h s' F' n, zj_Copy fuel v s = Ok (Some h, s') /\ inv s' F' /\ cloned F a j F' n /\ on s' F' h n A /\
    svals s h = None /\ (forall u w B, handle s F u w B -> handle s' F' u w B).
Proof.
  intros I H R Fa Rm fuel Hf. destruct (copy_wp s F v a A j fuel f I H Fa R) as (r & s' & E & h & F' & n & -> & Bh & C & Sh & So & X); auto.
  { unfold room in Rm. lia. }
  exists h, s', F', n. split; auto. split; [apply C|]. split; [eapply copied_cloned; eauto|].
  assert (Nh : svals s h = None) by (apply (beyond_nothing s h (i_wf _ _ I) Bh)).
  assert (Sub : forall x, F x <> None -> F' x <> None).
  { intros x Hx. destruct (F x) as [fx|] eqn:Ex; [|congruence]. rewrite (cp_sub _ _ _ _ _ _ _ C x fx Ex). discriminate. }
  split; [|split; auto].
  - split; auto. destruct H as (_ & [H2 N2] & _). split; [split; auto; now apply (x_alive _ _ _ _ _ X)|]. right. exists n. split; auto.
    destruct (cp_root _ _ _ _ _ _ _ C) as (g & g' & _ & E' & _). congruence.
  - intros u w B (H1 & [H2 N2] & H3). split; [rewrite So; auto; congruence|]. split; [split; auto; now apply (x_alive _ _ _ _ _ X)|].
    destruct H3 as [H3|(x & Ex & Hx)]; auto. right. exists x. auto.
Qed.
Lemma copy_none s F v A : inv s F -> empty s F v A -> room s A 16 -> forall fuel,
  exists s', zj_Copy fuel v s = Ok (None, s') /\ untouched s F s'.
Proof.
  intros I H Rm fuel. destruct (copy_empty s F v A fuel I H Rm) as (r & s' & E & -> & I' & X). exists s'. split; auto.
  eapply ext_untouched; eauto.
Qed.
(** Copying any number of nested arrays: the cost is linear in the depth. *)
Lemma copy_deep s F v a A f n : inv s F -> on s F v a A -> reads F a (nest n (JArr [])) -> F a = Some f ->
  room s A (88 + klen (fkey f) + 72 * N.of_nat n) -> exists k, forall fuel, (k <= fuel)%nat ->
  exists h s' F' c, zj_Copy fuel v s = Ok (Some h, s') /\ inv s' F' /\ on s' F' h c A /\ reads F' c (nest n (JArr [])).
Proof.
  intros I H R Fa Rm. assert (E : jcost (nest n (JArr [])) = 72 * N.of_nat n).
  { clear. induction n as [|n IH]; [reflexivity|]. cbn [nest jcost fold_right]. rewrite IH. lia. }
  exists (S (jsteps (nest n (JArr [])))). intros fuel Hf.
  destruct (copy_exact s F v a A _ f I H R Fa) with (fuel := fuel) as (h & s' & F' & c & E1 & I' & C & Ho & _); auto.
  { unfold room, icost in *. cbn [fst snd]. lia. }
  exists h, s', F', c. split; auto. split; auto. split; auto. apply C.
Qed.
Fixpoint depth (j : json) : nat :=
  match j with
  | JArr l => S (list_max (map depth l))
  | JObj l => S (list_max (map (fun kv => depth (snd kv)) l))
  | _ => O
  end.
(** Arrays and objects nested in each other, [n] deep. *)
Fixpoint tower (n : nat) : json :=
  match n with O => JNull | S m => if Nat.even m then JArr [tower m; JNum [49]] else JObj [([97], tower m)] end.
Lemma tower_ok n : json_ok (tower n).
Proof.
  induction n as [|n IH]; cbn [tower]; [constructor|]. destruct (Nat.even n); constructor.
  - constructor; auto. constructor; auto. constructor. exists [], [49], [], []. split; [now left|]. split; [right; exists 49, []; split; [lia|]; now split|]. split; [now left|]. split; [now left|reflexivity].
  - constructor; auto. split; auto. exists [97]. apply dec_plain; try easy. constructor.
Qed.
Lemma tower_depth n : depth (tower n) = n.
Proof.
  induction n as [|n IH]; [reflexivity|]. cbn [tower]. destruct (Nat.even n); cbn [depth map list_max fold_right snd].
  - change (list_max [depth (tower n); depth (JNum [49])]) with (Nat.max (depth (tower n)) (Nat.max 0 0)). rewrite IH. lia.
  - change (list_max [depth (tower n)]) with (Nat.max (depth (tower n)) 0). rewrite IH. lia.
Qed.
Lemma any_depth s F v A src j : inv s F -> empty s F v A -> cstring s src (print j) -> json_ok j ->
  room s A (len_cost (lenN (print j)) + print_cost (lenN (print j)) + 88 + jcost j) ->
  exists s1 F1, zj_Parse v src s = Ok (true, s1) /\ content s1 F1 v j /\
    exists k, forall fuel, (k <= fuel)%nat ->
      (exists p s2, zj_Stringify fuel v s1 = Ok (p, s2) /\ string_at s2 p (print j)) /\
      (exists h s2 F2, zj_Copy fuel v s1 = Ok (Some h, s2) /\ content s2 F2 h j).
Proof.
  intros I H C Jo R. pose proof (print_text j Jo) as J.
  assert (R1 : room s A (len_cost (lenN (print j)))) by (unfold room in *; lia).
  pose proof (parse_ag s F v Null A I H src _ C R1) as Ag.
  destruct (ok_here _ s F v Null A _ _ [] Ag j J) as (s1 & F1 & a & E & P).
  pose proof (pd_ext _ _ _ _ _ _ _ _ _ _ P) as X.
  destruct (pd_at _ _ _ _ _ _ _ _ _ _ P) as [K|[_ B]]; [discriminate|].
  assert (Na : F a = None) by (eapply inv_beyond; eauto).
  destruct (pd_root _ _ _ _ _ _ _ _ _ _ P) as (fa & Ea & L). rewrite Na in L. destruct L as (Ka & _).
  assert (On : on s1 F1 v a A).
  { split; [apply P|]. destruct H as (_ & [Al NA] & _). split; [split; auto; now apply (x_alive _ _ _ _ _ X)|]. right. exists a. split; auto. congruence. }
  assert (Ra : reads F1 a j) by apply P.
  pose proof (x_used _ _ _ _ _ X A) as U. rewrite at_eq in U.
  exists s1, F1. split; auto. split; [exists a, A; auto|]. exists (S (jsteps j)). intros fuel Hf. split.
  - destruct (stringify_content s1 F1 v a A j (pd_inv _ _ _ _ _ _ _ _ _ _ P) On Ra) with (fuel := fuel) as (p & s2 & E2 & S2 & _); [unfold room in *; lia|lia|].
    exists p, s2. auto.
  - destruct (copy_exact s1 F1 v a A j fa (pd_inv _ _ _ _ _ _ _ _ _ _ P) On Ra Ea) with (fuel := fuel) as (h & s2 & F2 & c & E2 & I2 & Cl & Ho & _); auto.
    { rewrite Ka. unfold icost, room in *. cbn [fst snd klen]. lia. }
    exists h, s2, F2. split; auto. exists c, A. split; auto. apply Cl.
Qed.

(** *** Adding a copy *)
Lemma arr_kids F a l : reads F a (JArr l) -> exists f kids it, F a = Some f /\ fvalue f = VCont false kids /\
  readsL F kids it /\ JArr l = container false it /\ length kids = length l.
Proof.
  intro R. inversion R as [| | | |? f ob kids it Ha Hv Rl E0 E]. destruct ob; [discriminate|].
  exists f, kids, it. split; auto. split; auto. split; auto. split; auto.
  rewrite (readsL_length _ _ _ Rl). unfold container in E. injection E as <-. now rewrite map_length.
Qed.
Lemma obj_kids F a l : reads F a (JObj l) -> exists f kids it, F a = Some f /\ fvalue f = VCont true kids /\
  readsL F kids it /\ JObj l = container true it /\ length kids = length l.
Proof.
  intro R. inversion R as [| | | |? f ob kids it Ha Hv Rl E0 E]. destruct ob; [|discriminate].
  exists f, kids, it. split; auto. split; auto. split; auto. split; auto.
  rewrite (readsL_length _ _ _ Rl). unfold container in E. injection E as <-. now rewrite map_length.
Qed.
Lemma child_sub F F1 y x : submap F F1 -> child F y x -> child F1 y x.
Proof. intros S (f & ob & kids & H1 & H2). exists f, ob, kids. split; auto. Qed.
Lemma changed_sub D F F1 F' a : submap F F1 -> changed D F1 F' a -> changed D F F' a.
Proof.
  intros S C x f Hx Nx. destruct (C x f (S x f Hx) Nx) as (f' & E & H1 & H2). exists f'. split; auto. split; auto.
  intros y Ny Hy. apply (H2 y Ny). eapply child_sub; eauto.
Qed.
Lemma changed_trans F F1 F2 a : changed none F F1 a -> changed none F1 F2 a -> changed none F F2 a.
Proof.
  intros C1 C2 x f Hx _. destruct (C1 x f Hx) as (f1 & E1 & V1 & K1); auto. destruct (C2 x f1 E1) as (f2 & E2 & V2 & K2); auto.
  exists f2. split; auto. split; [intro N; rewrite V2, V1; auto|]. intros y Ny (fy & ob & kids & Hy & Hv & Hin).
  rewrite (K2 y Ny), (K1 y Ny); auto.
  - exists fy, ob, kids. auto.
  - destruct (C1 y fy Hy) as (fy' & Ey & Vy & _); auto. exists fy', ob, kids. split; auto. rewrite Vy; auto.
Qed.
Lemma append_facts F ob a c fa fc kids ja jc : wfdom F -> appendable F ob a c fa fc kids -> reads F a ja -> reads F c jc -> ~ below F c a ->
  let F' := append F a c fa fc ob kids in
  changed none F F' a /\ reads F' a (jadd (fkey fc) jc ja) /\
  (forall x f, F x = Some f -> exists f', F' x = Some f' /\ fkey f' = fkey f) /\
  (forall x, F x <> None -> tidy F x -> tidy F' x) /\ kid_at F' a (length kids) c /\ (forall x, F' x <> None -> F x <> None).
Proof.
  intros W [Ha Hv Hc Hp Nac Nak He Hk Hl] Ra Rc Nb F'. subst F'.
  destruct (reads_cont F a ja fa ob kids Ra Ha Hv) as (it & -> & Rl).
  split; [eapply append_changed; eauto|]. split; [rewrite jadd_container; eapply append_reads; eauto|].
  split. { intros x f Hx. destruct (append_keep F a c fa fc ob kids W Ha Hv Hc Hp Nac Nak x f Hx) as (f' & E & K & _). now exists f'. }
  split; [intros; eapply append_tidy; eauto|]. split.
  - exists (grown c fa ob kids), ob, (kids ++ [c]). split; [apply append_a; auto|]. split; auto.
    rewrite nth_error_app2, Nat.sub_diag by lia. reflexivity.
  - intros x Hx. destruct (append F a c fa fc ob kids x) as [f'|] eqn:E; [|congruence].
    eapply append_some in E as (f0 & E0); eauto. congruence.
Qed.
Lemma addable_intro F ob a fa kids j : F a = Some fa -> fvalue fa = VCont ob kids -> reads F a j -> end_ok F a ->
  lenN kids + 1 < two32 -> addable F ob a fa kids.
Proof. intros Ha Hv R E Hl. constructor; auto; [eapply not_own_kid; eauto|eapply E; eauto]. Qed.
Lemma lenN_of {X Y} (l : list X) (m : list Y) : length l = length m -> lenN l = lenN m.
Proof. unfold lenN. congruence. Qed.
Definition grows (s : st) (F : dom) (a : addr) (i : nat) (jn : json) (k : option bytes) (s' : st) : Prop :=
  exists F' n, edits none none none s F a jn s' F' /\ F n = None /\ kid_at F' a i n /\ key_at F' n k /\
    (forall x, F' x <> None -> (F x <> None -> tidy F x) -> tidy F' x).
Lemma objAdd_exact s F v a A vv b B l j k : inv s F -> on s F v a A -> on s F vv b B -> reads F a (JObj l) -> end_ok F a ->
  lenN l + 1 < two32 -> reads F b j -> key_at F b (Some k) -> room s B (88 + icost (Some k, j)) ->
  forall fuel, (S (jsteps j) <= fuel)%nat ->
  exists s', zj_ObjAdd fuel v vv s = Ok (true, s') /\ grows s F a (length l) (JObj (l ++ [(k, j)])) (Some k) s'.
Proof.
  intros I Hv Hb Ra Ea Hl Rb (fb & Fb & Kb) Rm fuel Hf. destruct (obj_kids F a l Ra) as (fa & kids & it & Fa & Va & Rl & Eit & Len).
  pose proof (addable_intro F true a fa kids _ Fa Va Ra Ea) as Ad. rewrite (lenN_of _ _ Len) in Ad. specialize (Ad Hl).
  destruct (objAdd_wp s F v a A vv b B j fa fb kids fuel I Hv Hb Ad Fb ltac:(congruence) Rb) as (r & s' & E & -> & s1 & F1 & n & F' & C & (fn & Fn & Ap & ->) & I' & So & X); auto.
  { unfold room in Rm. rewrite Kb. lia. }
  exists s'. split; auto. pose proof (copied_cloned _ _ _ _ _ _ _ I C) as Cl.
  assert (R1 : reads F1 a (JObj l)) by (eapply reads_submap; eauto; intros x f; apply (cl_old _ _ _ _ _ Cl)).
  assert (Nb : ~ below F1 n a) by (intro K; apply (cl_apart _ _ _ _ _ Cl) in K; congruence).
  destruct (append_facts F1 true a n fa fn kids _ j (i_dom _ _ (cp_inv _ _ _ _ _ _ _ C)) Ap R1 (cl_reads _ _ _ _ _ Cl) Nb) as (Ch & Rn & Ky & Ty & Ka & Dm).
  assert (Kn : fkey fn = Some k).
  { destruct (cl_key _ _ _ _ _ Cl (Some k)) as (fn' & En & Ek); [now exists fb|]. congruence. }
  exists (append F1 a n fa fn true kids), n. split; [|split; [apply Cl|split; [rewrite <- Len; auto|split]]].
  - eapply edits_intro; eauto.
    + eapply changed_sub; [|exact Ch]. intros x f; apply (cl_old _ _ _ _ _ Cl).
    + rewrite Kn in Rn. exact Rn.
    + intros x f Hx _ _. apply Ky. now apply (cl_old _ _ _ _ _ Cl).
  - destruct (Ky n fn Fn) as (f' & E' & K'). exists f'. split; congruence.
  - intros x Hx T. apply Ty; auto. apply (cl_tidy _ _ _ _ _ Cl); auto.
Qed.
Lemma arrayAdd_exact s F v a A vv b B l j k : inv s F -> on s F v a A -> on s F vv b B -> reads F a (JArr l) -> end_ok F a ->
  lenN l + 1 < two32 -> reads F b j -> key_at F b k -> room s B (88 + icost (k, j)) ->
  forall fuel, (S (jsteps j) <= fuel)%nat ->
  exists s', zj_ArrayAdd fuel v vv s = Ok (true, s') /\ grows s F a (length l) (JArr (l ++ [j])) None s'.
Proof.
  intros I Hv Hb Ra Ea Hl Rb (fb & Fb & Kb) Rm fuel Hf. destruct (arr_kids F a l Ra) as (fa & kids & it & Fa & Va & Rl & Eit & Len).
  pose proof (addable_intro F false a fa kids _ Fa Va Ra Ea) as Ad. rewrite (lenN_of _ _ Len) in Ad. specialize (Ad Hl).
  destruct (arrayAdd_wp s F v a A vv b B j fa fb kids fuel I Hv Hb Ad Fb Rb) as (r & s' & E & -> & s1 & F1 & n & F' & C & (fn & Fn & Ap & ->) & I' & So & X); auto.
  { unfold room in Rm. rewrite Kb. lia. }
  exists s'. split; auto. pose proof (copied_cloned _ _ _ _ _ _ _ I C) as Cl.
  assert (R1 : reads F1 a (JArr l)) by (eapply reads_submap; eauto; intros x f; apply (cl_old _ _ _ _ _ Cl)).
  assert (Nb : ~ below F1 n a) by (intro K; apply (cl_apart _ _ _ _ _ Cl) in K; congruence).
  pose proof (i_dom _ _ (cp_inv _ _ _ _ _ _ _ C)) as W1.
  assert (Pn : fpar fn = None) by (destruct (cl_root _ _ _ _ _ Cl) as (fn' & En & Pn); congruence).
  assert (W2 : wfdom (dropkey F1 n)) by (eapply dropkey_wfdom; eauto).
  assert (R2 : reads (dropkey F1 n) a (JArr l)) by (eapply dropkey_reads; eauto).
  assert (R3 : reads (dropkey F1 n) n j) by (eapply dropkey_reads; eauto; apply Cl).
  destruct (append_facts (dropkey F1 n) false a n fa (nokey fn) kids _ j W2 Ap R2 R3) as (Ch & Rn & Ky & Ty & Ka & Dm).
  { now rewrite dropkey_below. }
  assert (Na : forall x f, F x = Some f -> dropkey F1 n x = Some f).
  { intros x f Hx. rewrite dropkey_other; [now apply (cl_old _ _ _ _ _ Cl)|]. intros ->. rewrite (cl_new _ _ _ _ _ Cl) in Hx. discriminate. }
  exists (append (dropkey F1 n) a n fa (nokey fn) false kids), n. split; [|split; [apply Cl|split; [rewrite <- Len; auto|split]]].
  - eapply edits_intro; eauto. eapply changed_sub; [|exact Ch]. exact Na.
  - destruct (Ky n (nokey fn)) as (f' & E' & K'); [now apply dropkey_at|]. exists f'. split; auto.
  - intros x Hx T. apply Ty; auto. eapply dropkey_tidy; eauto. apply (cl_tidy _ _ _ _ _ Cl); auto.
    apply Dm in Hx. destruct (dropkey F1 n x) eqn:Ex; [|congruence]. apply dropkey_back in Ex as (f0 & Ex & _). congruence.
Qed.

(** *** Refusals *)
Definition not_of (F : dom) (t : jtype) (w : word) : Prop :=
  w = Null \/ exists a j, w = At a /\ reads F a j /\ type_of j <> t.
Lemma ftype_of F a j f : reads F a j -> F a = Some f -> ftype (fvalue f) = type_of j.
Proof.
  intros R Ha. inversion R as [? f0 E1 E2|? f0 ? E1 E2|? f0 ? E1 E2|? f0 ? E1 E2|? f0 ob kids it E1 E2 Rl]; subst;
    replace f with f0 by congruence; rewrite E2; try reflexivity. now destruct ob.
Qed.
Lemma not_of_ftype F t w : not_of F t w -> forall a f, w = At a -> F a = Some f -> ftype (fvalue f) <> t.
Proof.
  intros [->|(a & j & -> & R & T)] a' f E Ha; [discriminate|]. injection E as <-. now rewrite (ftype_of F a j f R Ha).
Qed.
Lemma refused_ok s m : wp m s (refused s) -> m s = Ok (false, s).
Proof. intros (r & s' & E & -> & ->). exact E. Qed.
Lemma objAdd_not s F v w A vv fuel : inv s F -> handle s F v w A -> not_of F TObject w ->
  zj_ObjAddFast v vv s = Ok (false, s) /\ zj_ObjAdd fuel v vv s = Ok (false, s).
Proof.
  intros I H N. destruct (add_type_no s F v vv A I w fuel H (not_of_ftype _ _ _ N)) as [H1 H2].
  split; now apply refused_ok.
Qed.
Lemma arrayAdd_not s F v w A vv fuel : inv s F -> handle s F v w A -> not_of F TArray w ->
  zj_ArrayAddFast v vv s = Ok (false, s) /\ zj_ArrayAdd fuel v vv s = Ok (false, s).
Proof.
  intros I H N. destruct (arrayAdd_type_no s F v vv A I w fuel H (not_of_ftype _ _ _ N)) as [H1 H2].
  split; now apply refused_ok.
Qed.
Lemma obj_type F a l : reads F a (JObj l) -> exists f, F a = Some f /\ ftype (fvalue f) = TObject.
Proof. intro R. destruct (obj_kids F a l R) as (f & kids & _ & Ha & Hv & _). exists f. rewrite Hv. auto. Qed.
Lemma arr_type F a l : reads F a (JArr l) -> exists f, F a = Some f /\ ftype (fvalue f) = TArray.
Proof. intro R. destruct (arr_kids F a l R) as (f & kids & _ & Ha & Hv & _). exists f. rewrite Hv. auto. Qed.
Lemma objAdd_nokey s F v a A vv w B l fuel : inv s F -> on s F v a A -> reads F a (JObj l) -> handle s F vv w B ->
  (forall b, w = At b -> key_at F b None) ->
  zj_ObjAddFast v vv s = Ok (false, s) /\ zj_ObjAdd fuel v vv s = Ok (false, s).
Proof.
  intros I H R Hv K. destruct (obj_type F a l R) as (f & Ha & T).
  destruct (add_key_no s F v vv A B I a f w fuel H Ha T Hv) as [H1 H2].
  { intros b fb E Fb. destruct (K b E) as (f' & E' & K'). congruence. }
  split; now apply refused_ok.
Qed.
Lemma arrayAdd_none s F v a A vv B l fuel : inv s F -> on s F v a A -> reads F a (JArr l) -> empty s F vv B -> room s B 16 ->
  zj_ArrayAddFast v vv s = Ok (false, s) /\ exists s', zj_ArrayAdd fuel v vv s = Ok (false, s') /\ untouched s F s'.
Proof.
  intros I H R Hv Rm. destruct (arr_type F a l R) as (f & Ha & T). split.
  - apply refused_ok. eapply arrayAddFast_empty; eauto.
  - destruct (arrayAdd_empty s F v vv A B I a f fuel H Ha T Hv Rm) as (r & s' & E & -> & I' & X). exists s'. split; auto.
    eapply ext_untouched; eauto.
Qed.

(** *** Adding by moving *)
Lemma below_dec F : (forall a j, reads F a j -> forall y, below F a y \/ ~ below F a y) /\
  (forall l it, readsL F l it -> forall y, (exists c, In c l /\ below F c y) \/ ~ exists c, In c l /\ below F c y).
Proof.
  assert (S : forall a f y, F a = Some f -> (forall ob kids, fvalue f <> VCont ob kids) -> below F a y \/ ~ below F a y).
  { intros a f y Ha Hv. destruct (addr_dec y a) as [->|N]; [left; constructor|right]. intro K.
    destruct (below_cases _ _ _ K) as [|(f' & ob & kids & c & E & E' & _)]; [congruence|]. apply (Hv ob kids). congruence. }
  apply reads_mutind.
  - intros a f Ha Hv y. eapply S; eauto. congruence.
  - intros a f b Ha Hv y. eapply S; eauto. congruence.
  - intros a f b Ha Hv y. eapply S; eauto. congruence.
  - intros a f b Ha Hv y. eapply S; eauto. congruence.
  - intros a f ob kids it Ha Hv _ IH y. destruct (addr_dec y a) as [->|N]; [left; constructor|]. destruct (IH y) as [(c & Hc & B)|Nk].
    + left. eapply below_trans; [|exact B]. eapply bl_kid; eauto. constructor.
    + right. intro K. destruct (below_cases _ _ _ K) as [|(f' & ob' & kids' & c & E & E' & Hc & B)]; [congruence|].
      apply Nk. exists c. replace f' with f in E' by congruence. rewrite Hv in E'. injection E' as <- <-. auto.
  - intro y. right. intros (c & [] & _).
  - intros c f j l it Hc _ IH1 _ IH2 y. destruct (IH1 y) as [B|N]; [left; exists c; split; auto; now left|]. destruct (IH2 y) as [(c' & Hc' & B)|N'].
    + left. exists c'. split; auto. now right.
    + right. intros (c' & [<-|Hc'] & B); auto. apply N'. now exists c'.
Qed.
Lemma taken_reads F c jc F1 a j : wfdom F -> taken_out F c jc F1 -> reads F a j -> exists j1, reads F1 a j1.
Proof.
  intros W (_ & _ & [(_ & ->)|(p & i & k & jp & Hk & Rp & E & [R1 Ab Be _])] & _) R; [now exists j|].
  destruct (proj1 (below_dec F) a j R p) as [B|N].
  - destruct (below_path F a p B) as (q & P). exists (jset q (jdel i jp) j). apply Ab; auto.
  - exists j. apply Be; auto.
Qed.
Lemma removed_cont F c F1 a fa ob kids : wfdom F -> removed F c F1 -> F a = Some fa -> fvalue fa = VCont ob kids -> a <> c ->
  exists fa1 kids1, F1 a = Some fa1 /\ fvalue fa1 = VCont ob kids1 /\
    ((kids1 = kids /\ fend fa1 = fend fa) \/
     exists l r, kids = l ++ c :: r /\ kids1 = l ++ r /\ fend fa1 = match r with [] => None | _ => fend fa end).
Proof.
  intros W R Ha Hv N. destruct R as [f Fc Pc|f p fp ob' l r Fc Pc Fp Vp Pr Np].
  - exists fa, kids. auto.
  - destruct (addr_dec a p) as [->|Np'].
    + assert (fp = fa) by congruence. subst fp. rewrite Vp in Hv. injection Hv as -> <-.
      exists (shrunk fa ob l r), (l ++ r). split; [eapply unlink_p; eauto|]. split; auto. right. exists l, r. auto.
    + destruct (unlink_keep F c p f fp ob' l r W Fc Fp Vp Np a fa Ha) as (f' & E & _ & V). exists f', kids.
      split; auto. split; [rewrite V; auto|]. left. split; auto.
      revert E. unfold unlink. rewrite (addr_eqb_neq a c), (addr_eqb_neq a p) by auto.
      destruct (is_opt (last_error l) a), (is_opt (hd_error r) a); rewrite ?Ha; cbn; intro E; injection E as <-; reflexivity.
Qed.
Lemma taken_end F c F1 a fa1 ob kids1 fa kids : fvalue fa = VCont ob kids -> F a = Some fa -> only_kid F a c \/ (end_ok F a /\ ~ last_kid F a c) ->
  ~ In c kids1 -> F1 a = Some fa1 ->
  ((kids1 = kids /\ fend fa1 = fend fa) \/
     exists l r, kids = l ++ c :: r /\ kids1 = l ++ r /\ fend fa1 = match r with [] => None | _ => fend fa end) ->
  kids1 <> [] -> fend fa1 = last_error kids1.
Proof.
  intros Hv Ha [(f & ob' & Ef & Ev)|[E L]] Nc H1 Hk N.
  { replace f with fa in Ev by congruence. rewrite Hv in Ev. injection Ev as <- ->. destruct Hk as [[-> K]|(l & r & E & -> & _)].
    - exfalso. apply Nc. now left.
    - exfalso. destruct l as [|x [|y l]]; cbn in E; [|discriminate|discriminate]. injection E as <-. auto. }
  destruct Hk as [[-> ->]|(l & r & -> & -> & ->)]; [eapply E; eauto|].
  destruct r as [|y r].
  - exfalso. apply L. rewrite app_nil_r in N. exists fa, ob, l. auto.
  - rewrite (E fa ob _ Ha Hv) by (destruct l; discriminate). rewrite (last_app l c (y :: r)), (last_app l y r).
    rewrite (last_app [] y r : last_error (y :: r) = _). now destruct (last_error r).
Qed.
(** What a call that consumes [vv] leaves: [vv] empty, every other value object standing for the same node. *)
Definition consumed (D : addr -> Prop) (s : st) (F : dom) (vv : addr) (B : N) (s' : st) (F' : dom) : Prop :=
  inv s' F' /\ empty s' F' vv B /\
  forall u w C, u <> vv -> handle s F u w C -> (forall d, w = At d -> ~ D d) -> handle s' F' u w C.
Lemma consumed_intro (D : addr -> Prop) s F vv w B s' F' Dn Dv c : inv s' F' -> handle s F vv w B -> svals s' vv = Some (mkVal Null B) ->
  (forall u, u <> vv -> svals s' u = svals s u) -> ext Dn Dv c s s' ->
  (forall x, F x <> None -> ~ D x -> F' x <> None) -> consumed D s F vv B s' F'.
Proof.
  intros I (_ & [A1 A2] & _) V O X K. split; auto. split.
  - split; auto. split; [split; auto; now apply (x_alive _ _ _ _ _ X)|]. now left.
  - intros u x C N (H1 & [H2 N2] & H3) Nd. split; [now rewrite O|]. split; [split; auto; now apply (x_alive _ _ _ _ _ X)|].
    destruct H3 as [H3|(y & E & Hy)]; auto. right. exists y. auto.
Qed.
Lemma removed_in F c F1 x : wfdom F -> removed F c F1 -> F x <> None -> F1 x <> None.
Proof. intros W R H. eapply removed_dom; eauto. Qed.
Lemma objAddFast_gen s F v a A vv c B l jc k : inv s F -> on s F v a A -> on s F vv c B -> reads F a (JObj l) ->
  reads F c jc -> key_at F c (Some k) -> movable F c -> ~ below F c a -> only_kid F a c \/ (end_ok F a /\ ~ last_kid F a c) -> lenN l + 1 < two32 ->
  exists s' F1 F' l1, zj_ObjAddFast v vv s = Ok (true, s') /\ taken_out F c jc F1 /\ reads F1 a (JObj l1) /\
    redrawn none none F1 a (JObj (l1 ++ [(k, jc)])) F' /\ consumed none s F vv B s' F' /\ kid_at F' a (length l1) c /\
    (forall x, F1 x <> None -> tidy F1 x -> tidy F' x).
Proof.
  intros I Hv Hc Ra Rc (fc & Fc & Kc) Mv Nb Ea Hl. pose proof (i_dom _ _ I) as W.
  destruct (movable_removed F c jc W Mv Rc) as (F1 & Rm & To).
  destruct (obj_kids F a l Ra) as (fa & kids & it & Fa & Va & Rl & Eit & Len).
  assert (Nac : a <> c) by (intros ->; apply Nb; constructor).
  destruct (removed_cont F c F1 a fa true kids W Rm Fa Va Nac) as (fa1 & kids1 & Fa1 & Va1 & Hk).
  destruct (taken_reads F c jc F1 a _ W To Ra) as (j1 & R1).
  destruct (reads_cont F1 a j1 fa1 true kids1 R1 Fa1 Va1) as (it1 & E1 & Rl1). subst j1.
  destruct (removed_root F c F1 W Rm) as (fc' & fc1 & Fc' & Fc1 & Kc1 & Vc1 & _ & Pc1 & _).
  assert (fc' = fc) by congruence. subst fc'.
  assert (Ap : appendable F1 true a c fa1 fc1 kids1).
  { constructor; auto.
    - eapply not_own_kid; eauto.
    - eapply (taken_end F c F1 a fa1 true kids1 fa kids); eauto. intro K.
      destruct (child_par F1 a c (removed_wfdom _ _ _ W Rm)) as (fx & Fx & Px); [exists fa1, true, kids1; auto|]. congruence.
    - cbn. congruence.
    - rewrite <- (lenN_of _ _ Len) in Hl. destruct Hk as [[-> _]|(l0 & r0 & -> & -> & _)]; auto.
      unfold lenN in *. rewrite !app_length in *. cbn in *. lia. }
  destruct (objAddFast_wp s F v a A vv c B F1 fa1 fc1 kids1 I Hv Hc Rm Ap) as (r & s' & E & -> & I' & V' & O & X).
  assert (W1 : wfdom F1) by (eapply removed_wfdom; eauto).
  assert (Nb1 : ~ below F1 c a) by (intro K; apply Nb; eapply removed_below; eauto).
  destruct (append_facts F1 true a c fa1 fc1 kids1 _ jc W1 Ap R1 (proj1 (proj2 To)) Nb1) as (Ch & Rn & Ky & Ty & Ka & Dm).
  exists s', F1, (append F1 a c fa1 fc1 true kids1), (map (fun kj => (okey (fst kj), snd kj)) it1).
  split; auto. split; auto. split; auto. split; [|split; [|split; auto]].
  - apply redrawn_intro; auto. rewrite Kc1, Kc in Rn. exact Rn.
  - eapply consumed_intro; eauto. intros x Hx _. apply (removed_in F c F1 x W Rm) in Hx. destruct (F1 x) as [fx|] eqn:Ex; [|congruence].
    destruct (Ky x fx Ex) as (f' & E' & _). rewrite E'. discriminate.
  - rewrite map_length, <- (readsL_length _ _ _ Rl1). exact Ka.
Qed.
Lemma objAddFast_exact s F v a A vv c B l jc k : inv s F -> on s F v a A -> on s F vv c B -> reads F a (JObj l) ->
  reads F c jc -> key_at F c (Some k) -> movable F c -> ~ below F c a -> end_ok F a -> ~ last_kid F a c -> lenN l + 1 < two32 ->
  exists s' F1 F' l1, zj_ObjAddFast v vv s = Ok (true, s') /\ taken_out F c jc F1 /\ reads F1 a (JObj l1) /\
    redrawn none none F1 a (JObj (l1 ++ [(k, jc)])) F' /\ consumed none s F vv B s' F' /\ kid_at F' a (length l1) c /\
    (forall x, F1 x <> None -> tidy F1 x -> tidy F' x).
Proof. intros I Hv Hc Ra Rc Kc Mv Nb Ea Lk Hl. exact (objAddFast_gen s F v a A vv c B l jc k I Hv Hc Ra Rc Kc Mv Nb (or_intror (conj Ea Lk)) Hl). Qed.
Lemma arrayAddFast_gen s F v a A vv c B l jc : inv s F -> on s F v a A -> on s F vv c B -> reads F a (JArr l) ->
  reads F c jc -> movable F c -> ~ below F c a -> only_kid F a c \/ (end_ok F a /\ ~ last_kid F a c) -> lenN l + 1 < two32 ->
  exists s' F1 F' l1, zj_ArrayAddFast v vv s = Ok (true, s') /\ taken_out F c jc F1 /\ reads F1 a (JArr l1) /\
    redrawn (only c) none F1 a (JArr (l1 ++ [jc])) F' /\ consumed none s F vv B s' F' /\ kid_at F' a (length l1) c /\
    (forall x, F1 x <> None -> tidy F1 x -> tidy F' x).
Proof.
  intros I Hv Hc Ra Rc Mv Nb Ea Hl. pose proof (i_dom _ _ I) as W.
  destruct (movable_removed F c jc W Mv Rc) as (F1 & Rm & To).
  destruct (arr_kids F a l Ra) as (fa & kids & it & Fa & Va & Rl & Eit & Len).
  assert (Nac : a <> c) by (intros ->; apply Nb; constructor).
  destruct (removed_cont F c F1 a fa false kids W Rm Fa Va Nac) as (fa1 & kids1 & Fa1 & Va1 & Hk).
  destruct (taken_reads F c jc F1 a _ W To Ra) as (j1 & R1).
  destruct (reads_cont F1 a j1 fa1 false kids1 R1 Fa1 Va1) as (it1 & E1 & Rl1). subst j1.
  destruct (removed_root F c F1 W Rm) as (fc & fc1 & Fc & Fc1 & Kc1 & Vc1 & _ & Pc1 & _).
  assert (W1 : wfdom F1) by (eapply removed_wfdom; eauto).
  assert (W2 : wfdom (dropkey F1 c)) by (eapply dropkey_wfdom; eauto).
  assert (R2 : reads (dropkey F1 c) a (container false it1)) by (eapply dropkey_reads; eauto).
  assert (R3 : reads (dropkey F1 c) c jc) by (eapply dropkey_reads; eauto; apply To).
  assert (Ap : appendable (dropkey F1 c) false a c fa1 (nokey fc1) kids1).
  { constructor; auto.
    - now rewrite dropkey_other.
    - now apply dropkey_at.
    - exact (not_own_kid _ a _ fa1 false kids1 R1 Fa1 Va1).
    - eapply (taken_end F c F1 a fa1 false kids1 fa kids); eauto. intro K.
      destruct (child_par F1 a c (removed_wfdom _ _ _ W Rm)) as (fx & Fx & Px); [exists fa1, false, kids1; auto|]. congruence.
    - rewrite <- (lenN_of _ _ Len) in Hl. destruct Hk as [[-> _]|(l0 & r0 & -> & -> & _)]; auto.
      unfold lenN in *. rewrite !app_length in *. cbn in *. lia. }
  destruct (arrayAddFast_wp s F v a A vv c B F1 fa1 (nokey fc1) kids1 I Hv Hc Rm Ap) as (r & s' & E & -> & I' & V' & O & X).
  assert (Nb1 : ~ below (dropkey F1 c) c a) by (rewrite dropkey_below; intro K; apply Nb; eapply removed_below; eauto).
  destruct (append_facts (dropkey F1 c) false a c fa1 (nokey fc1) kids1 _ jc W2 Ap R2 R3 Nb1) as (Ch & Rn & Ky & Ty & Ka & Dm).
  assert (In1 : forall x, F1 x <> None -> dropkey F1 c x <> None).
  { intros x Hx. destruct (F1 x) as [fx|] eqn:Ex; [|congruence]. destruct (dropkey_keep F1 c x fx Ex) as (f' & E' & _). congruence. }
  exists s', F1, (append (dropkey F1 c) a c fa1 (nokey fc1) false kids1), (map snd it1).
  split; auto. split; auto. split; auto. split; [|split; [|split]].
  - apply redrawn_intro; auto.
    + eapply changed_trans; [eapply dropkey_changed; eauto|exact Ch].
    + intros x f Hx _ Nx. apply Ky. now rewrite dropkey_other.
  - eapply consumed_intro; eauto. intros x Hx _. apply (removed_in F c F1 x W Rm) in Hx. apply In1 in Hx.
    destruct (dropkey F1 c x) as [fx|] eqn:Ex; [|congruence]. destruct (Ky x fx Ex) as (f' & E' & _). rewrite E'. discriminate.
  - rewrite map_length, <- (readsL_length _ _ _ Rl1). exact Ka.
  - intros x Hx T. apply Ty; auto. eapply dropkey_tidy; eauto.
Qed.
Lemma arrayAddFast_exact s F v a A vv c B l jc : inv s F -> on s F v a A -> on s F vv c B -> reads F a (JArr l) ->
  reads F c jc -> movable F c -> ~ below F c a -> end_ok F a -> ~ last_kid F a c -> lenN l + 1 < two32 ->
  exists s' F1 F' l1, zj_ArrayAddFast v vv s = Ok (true, s') /\ taken_out F c jc F1 /\ reads F1 a (JArr l1) /\
    redrawn (only c) none F1 a (JArr (l1 ++ [jc])) F' /\ consumed none s F vv B s' F' /\ kid_at F' a (length l1) c /\
    (forall x, F1 x <> None -> tidy F1 x -> tidy F' x).
Proof. intros I Hv Hc Ra Rc Mv Nb Ea Lk Hl. exact (arrayAddFast_gen s F v a A vv c B l jc I Hv Hc Ra Rc Mv Nb (or_intror (conj Ea Lk)) Hl). Qed.

(** *** Assigning *)
Lemma kids_kid F b fb y : F b = Some fb -> In y (kids_in (fvalue fb)) -> below F b y.
Proof.
  intros Fb Hy. destruct (fvalue fb) as [| | | |ob kids] eqn:V; cbn in Hy; try contradiction.
  eapply bl_kid; eauto. constructor.
Qed.
Lemma take_facts F a b fa fb fe e j : wfdom F -> takable F a b fa fb -> fe = None \/ (e = b /\ fe = fend fb) ->
  reads F b j -> ~ below F b a ->
  let F' := take F a b fa fb fe in
  changed (only b) F F' a /\ reads F' a j /\
  (forall x f, F x = Some f -> x <> b -> exists f', F' x = Some f' /\ fkey f' = fkey f) /\
  (forall x, x <> b -> F x <> None -> (x <> a -> tidy F x) -> (x = a -> fe = fend fb /\ tidy F b) -> tidy F' x).
Proof.
  intros W [Ha Hb Pb N S] Hfe R Nb F'. subst F'.
  split; [eapply take_changed; eauto|]. split; [eapply take_reads; eauto|]. split.
  - intros x f Hx Nx. destruct (take_keep F a b fa fb e fe W Ha Hb Pb N S Hfe x f Hx Nx) as (f' & E & K & _). now exists f'.
  - intros x Nx Dx T1 T2. eapply take_tidy; eauto.
Qed.
Lemma setFast_exact s F v a A vv b B j : inv s F -> on s F v a A -> on s F vv b B -> F a <> None -> reads F b j -> movable F b ->
  ~ below F b a -> forall fuel, (length (items j) <= fuel)%nat ->
  exists s' F1 F', zj_SetFast fuel v vv s = Ok (true, s') /\ taken_out F b j F1 /\ redrawn none (only b) F1 a j F' /\
    consumed (only b) s F vv B s' F' /\
    (forall x, x <> b -> F1 x <> None -> (x <> a -> tidy F1 x) -> (x = a -> tidy F1 b) -> tidy F' x).
Proof.
  intros I Hv Hb Da Rb Mv Nb fuel Hf. pose proof (i_dom _ _ I) as W.
  destruct (movable_removed F b j W Mv Rb) as (F1 & Rm & To).
  assert (Nab : a <> b) by (intros ->; apply Nb; constructor).
  assert (W1 : wfdom F1) by (eapply removed_wfdom; eauto).
  destruct (removed_root F b F1 W Rm) as (fb & fb1 & Fb & Fb1 & Kb1 & Vb1 & _ & Pb1 & _).
  pose proof (removed_in F b F1 a W Rm Da) as Da1. destruct (F1 a) as [fa1|] eqn:Fa1; [|congruence].
  assert (Nb1 : ~ below F1 b a) by (intro K; apply Nb; eapply removed_below; eauto).
  assert (Tk : takable F1 a b fa1 fb1).
  { constructor; auto. intro K. apply Nb1. eapply kids_kid; eauto. }
  destruct (setFast_wp s F v a A vv b B F1 fa1 fb1 fuel I Hv Hb Rm Tk) as (r & s' & E & -> & I' & Vv & V' & O & X).
  { rewrite Vb1, (reads_kids F b j fb Rb Fb). destruct j; cbn in *; rewrite ?map_length in Hf; lia. }
  destruct (take_facts F1 a b fa1 fb1 (fend fb1) b j W1 Tk (or_intror (conj eq_refl eq_refl)) (proj1 (proj2 To)) Nb1) as (Ch & Rn & Ky & Ty).
  exists s', F1, (take F1 a b fa1 fb1 (fend fb1)). split; auto. split; auto. split; [|split].
  - apply redrawn_intro; auto.
  - eapply consumed_intro; eauto.
    + intros u Nu. destruct (addr_dec u v) as [->|Nv]; [|now apply O]. destruct Hv as (Hv & _). congruence.
    + intros x Hx Nx. apply (removed_in F b F1 x W Rm) in Hx. destruct (F1 x) as [fx|] eqn:Ex; [|congruence].
      destruct (Ky x fx Ex Nx) as (f' & E' & _). rewrite E'. discriminate.
  - intros x Nx Dx T1 T2. apply Ty; auto.
Qed.
Lemma setFast_new s F v A vv b B j : inv s F -> empty s F v A -> on s F vv b B -> reads F b j -> movable F b -> forall fuel,
  exists s' F1, zj_SetFast fuel v vv s = Ok (true, s') /\ taken_out F b j F1 /\ inv s' F1 /\ on s' F1 v b A /\ empty s' F1 vv B /\
    (forall u w C, u <> v -> u <> vv -> handle s F u w C -> handle s' F1 u w C).
Proof.
  intros I Hv Hb Rb Mv fuel. pose proof (i_dom _ _ I) as W. destruct (movable_removed F b j W Mv Rb) as (F1 & Rm & To).
  destruct (setFast_into s F v A vv b B F1 fuel I Hv Hb Rm) as (r & s' & E & -> & I' & Vv & V' & O & X).
  exists s', F1. split; auto. split; auto. split; auto.
  assert (Al : forall C, alive s C /\ ~ isvol C -> alive s' C /\ ~ isvol C) by (intros C [H1 H2]; split; auto; now apply (x_alive _ _ _ _ _ X)).
  destruct Hv as (Hv & Av & _). destruct Hb as (Hb & Ab & Db). split; [|split].
  - split; auto. split; auto. right. exists b. split; auto. destruct (proj1 To) as (f & Ef & _). congruence.
  - split; auto.
  - intros u w C N1 N2 (H1 & H2 & H3). split; [now rewrite O|]. split; auto.
    destruct H3 as [H3|(y & Ey & Hy)]; auto. right. exists y. split; auto. eapply removed_in; eauto.
Qed.
Lemma setFast_none s F v vv B fuel : empty s F vv B -> zj_SetFast fuel v vv s = Ok (false, s).
Proof. intro H. destruct (setFast_empty s F v vv B fuel H) as (r & s' & E & -> & ->). exact E. Qed.
Lemma set_exact s F v a A vv b B j k : inv s F -> on s F v a A -> on s F vv b B -> F a <> None -> reads F b j -> key_at F b k ->
  room s B (88 + icost (k, j)) -> forall fuel, (S (jsteps j) <= fuel)%nat -> (length (items j) <= fuel)%nat ->
  exists s' F', zj_Set fuel v vv s = Ok (true, s') /\ edits none none none s F a j s' F' /\
    (forall x, sbelow F' a x -> F x = None) /\ (forall x, x <> a -> F' x <> None -> (F x <> None -> tidy F x) -> tidy F' x).
Proof.
  intros I Hv Hb Da Rb (fb & Fb & Kb) Rm fuel Hf Hf2. destruct (F a) as [fa|] eqn:Fa; [|congruence].
  destruct (set_wp s F v a A vv b B fa fb j fuel I Hv Hb Fa Fb Rb) as (r & s' & E & -> & s1 & F1 & n & F' & C & (fn & Fn & Tk & ->) & I' & So & X); auto.
  { unfold room in Rm. rewrite Kb. lia. }
  { rewrite (reads_kids F b j fb Rb Fb). destruct j; cbn in *; rewrite ?map_length in Hf2; lia. }
  pose proof (copied_cloned _ _ _ _ _ _ _ I C) as Cl. pose proof (i_dom _ _ (cp_inv _ _ _ _ _ _ _ C)) as W1.
  assert (Nb : ~ below F1 n a) by (intro K; apply (cl_apart _ _ _ _ _ Cl) in K; congruence).
  destruct (take_facts F1 a n fa fn None n j W1 Tk (or_introl eq_refl) (cl_reads _ _ _ _ _ Cl) Nb) as (Ch & Rn & Ky & Ty).
  assert (Nn : forall x, F x <> None -> x <> n) by (intros x Hx ->; apply Hx, Cl).
  exists s', (take F1 a n fa fn None). split; auto. split; [|split].
  - eapply edits_intro; eauto.
    + intros x f Hx _. destruct (Ch x f (cl_old _ _ _ _ _ Cl x f Hx)) as (f' & E1 & E2 & E3); [apply Nn; congruence|].
      exists f'. split; auto. split; auto. intros y Ny Cy. apply (E3 y Ny). eapply child_sub; eauto. intros z fz; apply (cl_old _ _ _ _ _ Cl).
    + intros x f Hx _ _. apply Ky; [now apply (cl_old _ _ _ _ _ Cl)|apply Nn; congruence].
  - assert (G : forall x, sbelow (take F1 a n fa fn None) a x -> exists y, In y (kids_in (fvalue fn)) /\ below F1 y x).
    { intros x (f' & ob & kids & c & E1 & E2 & Hc & Bc). rewrite take_a in E1 by apply Tk. injection E1 as <-. cbn in E2.
      exists c. split; [now rewrite E2|].
      assert (Bc1 : below F1 n c) by (eapply kids_kid; eauto; now rewrite E2).
      clear - Bc Bc1 Tk Fn Cl Nb W1. induction Bc as [|y f ob kids z B IH Hy Vy Hz]; [constructor|].
      assert (By : below F1 n y) by (eapply below_trans; eauto).
      assert (Ny : y <> a) by (intros ->; auto).
      destruct (take_some F1 a n fa fn n None W1 (tb_a _ _ _ _ _ Tk) (tb_b _ _ _ _ _ Tk) (tb_free _ _ _ _ _ Tk) (tb_self _ _ _ _ _ Tk) (or_introl eq_refl) y f Hy) as (Nyn & f0 & F0).
      destruct (take_keep F1 a n fa fn n None W1 (tb_a _ _ _ _ _ Tk) (tb_b _ _ _ _ _ Tk) (tb_free _ _ _ _ _ Tk) (tb_neq _ _ _ _ _ Tk) (tb_self _ _ _ _ _ Tk) (or_introl eq_refl) y f0 F0 Nyn) as (f1 & E1 & _ & V1 & _).
      assert (f1 = f) by congruence. subst f1. apply (bl_kid F1 c y f0 ob kids z); auto. rewrite <- V1; auto. }
    intros x Hx. destruct (G x Hx) as (y & Hy & By). apply (cl_apart _ _ _ _ _ Cl). eapply below_trans; [|exact By]. eapply kids_kid; eauto.
  - intros x Nx Dx T. destruct (take F1 a n fa fn None x) as [f'|] eqn:Ex; [|congruence].
    destruct (take_some F1 a n fa fn n None W1 (tb_a _ _ _ _ _ Tk) (tb_b _ _ _ _ _ Tk) (tb_free _ _ _ _ _ Tk) (tb_self _ _ _ _ _ Tk) (or_introl eq_refl) x f' Ex) as (Nxn & f0 & F0).
    apply Ty; auto; [congruence| |contradiction]. intros _. apply (cl_tidy _ _ _ _ _ Cl); auto. congruence.
Qed.
Lemma set_new s F v A vv b B j k : inv s F -> empty s F v A -> on s F vv b B -> reads F b j -> key_at F b k ->
  room s B (88 + icost (k, j)) -> forall fuel, (S (jsteps j) <= fuel)%nat ->
  exists s' F' n, zj_Set fuel v vv s = Ok (true, s') /\ inv s' F' /\ cloned F b j F' n /\ on s' F' v n A /\
    (forall u w C, u <> v -> handle s F u w C -> handle s' F' u w C).
Proof.
  intros I Hv Hb Rb (fb & Fb & Kb) Rm fuel Hf.
  destruct (set_into s F v A vv b B fb j fuel I Hv Hb Fb Rb) as (r & s' & E & -> & s1 & F1 & n & C & I' & V' & So & X); auto.
  { unfold room in Rm. rewrite Kb. lia. }
  pose proof (copied_cloned _ _ _ _ _ _ _ I C) as Cl.
  assert (Al : forall C, alive s C /\ ~ isvol C -> alive s' C /\ ~ isvol C) by (intros C0 [H1 H2]; split; auto; now apply (x_alive _ _ _ _ _ X)).
  exists s', F1, n. split; auto. split; auto. split; auto. destruct Hv as (Hv & Av & _). split.
  - split; auto. split; auto. right. exists n. split; auto. destruct (cl_root _ _ _ _ _ Cl) as (f & Ef & _). congruence.
  - intros u w D Nu (H1 & H2 & H3). split; [now apply So|]. split; auto.
    destruct H3 as [H3|(y & Ey & Hy)]; auto. right. exists y. split; auto. destruct (F y) as [fy|] eqn:Fy; [|congruence].
    rewrite (cl_old _ _ _ _ _ Cl y fy Fy). discriminate.
Qed.
Lemma set_none s F v vv B fuel : inv s F -> empty s F vv B -> room s B 16 ->
  exists s', zj_Set fuel v vv s = Ok (false, s') /\ untouched s F s'.
Proof.
  intros I H Rm. destruct (set_empty s F v vv B fuel I H Rm) as (r & s' & E & -> & I' & X). exists s'. split; auto.
  eapply ext_untouched; eauto.
Qed.

(** *** Deleting *)
Lemma nth_error_Some_len {X} (l : list X) i x : nth_error l i = Some x -> (i < length l)%nat.
Proof. intro E. apply nth_error_Some. congruence. Qed.
Lemma arrayDel_exact s F v a A l i : inv s F -> on s F v a A -> reads F a (JArr l) -> i < two32 -> room s A 16 ->
  prev_ok F a (N.to_nat i) -> forall fuel, (length l <= fuel)%nat ->
  exists r s', zj_ArrayDel fuel v i s = Ok (r, s') /\
  if i <? lenN l then r = true /\ exists F' c, edits none none none s F a (JArr (remove_nth (N.to_nat i) l)) s' F' /\
      kid_at F a (N.to_nat i) c /\ root F' c /\ (forall j, reads F c j -> reads F' c j) /\
      (forall x, x <> a \/ i = 0 -> F x <> None -> tidy F x -> tidy F' x)
  else r = false /\ s' = s.
Proof.
  intros I Hv Ra Hi Rm P fuel Hf. pose proof (i_dom _ _ I) as W.
  destruct (arr_kids F a l Ra) as (fa & kids & it & Fa & Va & Rl & Eit & Len).
  pose proof (lenN_of _ _ Len) as LenN.
  destruct (N.ltb_spec i (lenN l)) as [Lt|Ge].
  - destruct (nth_error kids (N.to_nat i)) as [c|] eqn:En.
    2:{ apply nth_error_None in En. unfold lenN in *. lia. }
    assert (Hk : kid_at F a (N.to_nat i) c) by (exists fa, false, kids; auto).
    destruct (kid_removed F a (N.to_nat i) c _ W Hk Ra P) as (F1 & k & jc & Rmv & Ch & R1 & R2 & R3 & E & T).
    destruct (arrayDel_wp s F v a A fa kids i fuel F1 I Hv Fa Va Rm Hi ltac:(lia)) as (r & s' & Er & K).
    { intros c' Ec. congruence. }
    rewrite En in K. destruct K as (-> & I' & So & X). exists true, s'. split; auto. split; auto. exists F1, c.
    split; [|split; auto; split; [|split]].
    + eapply edits_intro; eauto. intros x f Hx _ _. eapply removed_keys; eauto.
    + destruct (removed_root F c F1 W Rmv) as (f & f' & _ & E' & _ & _ & _ & E'' & _). now exists f'.
    + intros j0 Hj. now rewrite (reads_det F c _ _ Hj R2).
    + intros x Hx. apply T. destruct Hx as [Hx|Hx]; subst; auto.
  - destruct (arrayDel_wp s F v a A fa kids i fuel F I Hv Fa Va Rm Hi ltac:(lia)) as (r & s' & Er & K).
    { intros c' Ec. apply nth_error_Some_len in Ec. unfold lenN in *. lia. }
    destruct (nth_error kids (N.to_nat i)) as [c|] eqn:En.
    + apply nth_error_Some_len in En. unfold lenN in *. lia.
    + exists r, s'. destruct K as [-> ->]. auto.
Qed.
Definition keys_ok (l : list (bytes * json)) : Prop := forall k j, In (k, j) l -> ~ In 0 k.
Lemma json_ok_keys l : json_ok (JObj l) -> keys_ok l.
Proof.
  intros Jo k j H. apply strbody_no0. inversion Jo as [| | | | |l' Fo]; subst. rewrite Forall_forall in Fo. apply (Fo _ H).
Qed.
Lemma kid_key F kids l i c fc : readsL F kids (map (fun kv => (Some (fst kv), snd kv)) l) -> nth_error kids i = Some c -> F c = Some fc ->
  exists k j, nth_error l i = Some (k, j) /\ fkey fc = Some k.
Proof.
  intros Rl Hi Fc. destruct (readsL_nth _ _ _ Rl i c Hi) as (fc' & jc & Fc' & Ei & _). assert (fc' = fc) by congruence. subst fc'.
  rewrite nth_error_map in Ei. destruct (nth_error l i) as [[k j]|] eqn:En; [|discriminate]. injection Ei as E0 E1.
  exists k, j. split; auto.
Qed.
Section ObjDel.
Variables (s : st) (F : dom) (v a : addr) (A : N) (l : list (bytes * json)) (key : addr) (k : bytes) (fuel : nat).
Hypothesis I : inv s F.
Hypothesis Hv : on s F v a A.
Hypothesis Ra : reads F a (JObj l).
Hypothesis Ko : keys_ok l.
Hypothesis Hk : cstring s key k.
Hypothesis Rm : room s A 16.
Hypothesis Hf : (length l <= fuel)%nat.
Lemma objDel_exact l1 x l2 : l = l1 ++ (k, x) :: l2 -> (forall y, ~ In (k, y) l1) -> prev_ok F a (length l1) ->
  exists s' F' c, zj_ObjDel fuel v key s = Ok (true, s') /\ edits none none none s F a (JObj (l1 ++ l2)) s' F' /\
    kid_at F a (length l1) c /\ root F' c /\ reads F' c x /\
    (forall y, y <> a \/ l1 = [] -> F y <> None -> tidy F y -> tidy F' y).
Proof.
  intros El N1 P. pose proof (i_dom _ _ I) as W. destruct (obj_kids F a l Ra) as (fa & _ & _ & Fa & _).
  destruct (obj_here s F v a A (JObj l) fa I Hv Ra Fa l eq_refl) as (kids & Va & Rl & Len).
  destruct Hk as [N0 [sl Ht]].
  assert (Kz : forall c fc b, In c kids -> F c = Some fc -> fkey fc = Some b -> ~ In 0 b).
  { intros c fc b Hc Fc Kb. apply In_nth_error in Hc as (i & Hi). destruct (kid_key F kids l i c fc Rl Hi Fc) as (k0 & j0 & En & Ek).
    replace b with k0 by congruence. eapply Ko. eapply nth_error_In; eauto. }
  assert (Hc : exists c, nth_error kids (length l1) = Some c).
  { destruct (nth_error kids (length l1)) as [c|] eqn:En; [now exists c|]. apply nth_error_None in En. rewrite Len, El, app_length in En. cbn in En. lia. }
  destruct Hc as (c & Hc).
  assert (Kc : kid_at F a (length l1) c) by (exists fa, true, kids; auto).
  destruct (kid_removed F a (length l1) c _ W Kc Ra P) as (F1 & k' & jc & Rmv & Ch & R1 & R2 & R3 & E & T).
  assert (Ei : nth_error l (length l1) = Some (k, x)) by (rewrite El, nth_error_app2, Nat.sub_diag by lia; reflexivity).
  assert (Uni : forall o, first_child (key_of F k) kids o -> o = Some c).
  { assert (Kk : key_of F k c).
    { destruct (readsL_nth _ _ _ Rl _ c Hc) as (fc & _ & Fc & _). exists fc. split; auto.
      destruct (kid_key F kids l _ c fc Rl Hc Fc) as (k0 & j0 & En & Ek). congruence. }
    intros [d|] K.
    - destruct K as (pre & post & Ek & Kd & Np).
      destruct (Nat.lt_trichotomy (length pre) (length l1)) as [Lt|[Eq|Gt]].
      + exfalso. assert (Hd : nth_error kids (length pre) = Some d) by (rewrite Ek, nth_error_app2, Nat.sub_diag by lia; reflexivity).
        destruct Kd as (fd & Fd & Kd). destruct (kid_key F kids l _ d fd Rl Hd Fd) as (k0 & j0 & En & Ek0).
        assert (k0 = k) by congruence. subst k0. rewrite El, nth_error_app1 in En by lia. apply nth_error_In in En. exact (N1 _ En).
      + assert (Hd : nth_error kids (length pre) = Some d) by (rewrite Ek, nth_error_app2, Nat.sub_diag by lia; reflexivity). congruence.
      + exfalso. apply (Np c); auto. rewrite Ek, nth_error_app1 in Hc by lia. now apply nth_error_In in Hc.
    - exfalso. apply (K c); auto. now apply nth_error_In in Hc. }
  destruct (objDel_wp s F v a A fa kids key k sl fuel F1 I Hv Fa Va Rm Ht N0 Kz ltac:(lia)) as (r & s' & Er & o & K & D).
  { intros d Kd. apply Uni in Kd. congruence. }
  rewrite (Uni o K) in D. destruct D as (-> & I' & So & X). exists s', F1, c. split; auto.
  assert (Edel : jdel (length l1) (JObj l) = JObj (l1 ++ l2)) by (cbn; rewrite El, remove_cut; auto).
  rewrite Edel in R1. split; [|split; auto; split; [|split]].
  - eapply edits_intro; eauto. intros y f Hy _ _. eapply removed_keys; eauto.
  - destruct (removed_root F c F1 W Rmv) as (f & f' & _ & E' & _ & _ & _ & E'' & _). now exists f'.
  - assert (jc = x); [|congruence]. cbn [items] in E. rewrite nth_error_map, Ei in E. cbn in E. congruence.
  - intros y Hy. apply T. destruct Hy as [Hy|Hy]; subst; auto.
Qed.
Lemma objDel_absent : (forall y, ~ In (k, y) l) -> zj_ObjDel fuel v key s = Ok (false, s).
Proof.
  intros N1. destruct (obj_kids F a l Ra) as (fa & _ & _ & Fa & _).
  destruct (obj_here s F v a A (JObj l) fa I Hv Ra Fa l eq_refl) as (kids & Va & Rl & Len).
  destruct Hk as [N0 [sl Ht]].
  assert (Kz : forall c fc b, In c kids -> F c = Some fc -> fkey fc = Some b -> ~ In 0 b).
  { intros c fc b Hc Fc Kb. apply In_nth_error in Hc as (i & Hi). destruct (kid_key F kids l i c fc Rl Hi Fc) as (k0 & j0 & En & Ek).
    replace b with k0 by congruence. eapply Ko. eapply nth_error_In; eauto. }
  assert (No : forall c, In c kids -> ~ key_of F k c).
  { intros c Hc (fc & Fc & Kc). apply In_nth_error in Hc as (i & Hi). destruct (kid_key F kids l i c fc Rl Hi Fc) as (k0 & j0 & En & Ek).
    assert (k0 = k) by congruence. subst k0. apply nth_error_In in En. exact (N1 _ En). }
  destruct (objDel_wp s F v a A fa kids key k sl fuel F I Hv Fa Va Rm Ht N0 Kz ltac:(lia)) as (r & s' & Er & o & K & D).
  { intros d (pre & post & -> & Kd & _). exfalso. apply (No d); auto. apply in_app_iff. right. now left. }
  destruct o as [d|].
  - destruct K as (pre & post & -> & Kd & _). exfalso. apply (No d); auto. apply in_app_iff. right. now left.
  - destruct D as [-> ->]. exact Er.
Qed.
End ObjDel.
Lemma del_not s F v w A fuel key i : inv s F -> handle s F v w A ->
  (not_of F TArray w -> zj_ArrayDel fuel v i s = Ok (false, s)) /\ (not_of F TObject w -> zj_ObjDel fuel v key s = Ok (false, s)).
Proof.
  intros I H. split; intro N.
  - destruct (arrayDel_no s F v w A i fuel I H (not_of_ftype _ _ _ N)) as (r & s' & E & -> & ->). exact E.
  - destruct (objDel_no s F v w A key fuel I H (not_of_ftype _ _ _ N)) as (r & s' & E & -> & ->). exact E.
Qed.

(** *** A copy and its original are independent *)
Lemma clone_old_below F b j F' n x y : wfdom F -> cloned F b j F' n -> F x <> None -> below F' x y -> F y <> None.
Proof.
  intros W C Hx B. induction B as [|y f ob kids z B IH Hy Vy Hz]; auto.
  destruct (F y) as [fy|] eqn:Fy; [|congruence]. rewrite (cl_old _ _ _ _ _ C y fy Fy) in Hy. injection Hy as ->.
  destruct (child_par F y z W) as (fz & Fz & _); [exists f, ob, kids; auto|congruence].
Qed.
Lemma clone_safe (K D : addr -> Prop) F b j F' n x jn F2 : cloned F b j F' n -> F x <> None -> (forall d, D d -> F d <> None) ->
  redrawn K D F' x jn F2 -> reads F2 n j.
Proof.
  intros C Hx HD [_ _ Be _]. apply Be; [apply C| |].
  - intro B. apply (cl_apart _ _ _ _ _ C) in B. congruence.
  - intros d B Dd. apply (cl_apart _ _ _ _ _ C) in B. now apply (HD d).
Qed.
Lemma orig_safe (K D : addr -> Prop) F b j F' n x jn F2 y jy : wfdom F -> cloned F b j F' n -> below F' n x ->
  (forall d, D d -> F d = None) -> redrawn K D F' x jn F2 -> reads F y jy -> reads F2 y jy.
Proof.
  intros W C Hx HD [_ _ Be _] R.
  assert (Dy : F y <> None) by (inversion R; congruence).
  apply Be; [eapply reads_submap; eauto; intros z f; apply (cl_old _ _ _ _ _ C)| |].
  - intro B. apply (clone_old_below F b j F' n y x W C Dy) in B. apply (cl_apart _ _ _ _ _ C) in Hx. congruence.
  - intros d B Dd. apply (clone_old_below F b j F' n y d W C Dy) in B. apply HD in Dd. congruence.
Qed.
Lemma clone_safe_set s1 F b j F' n h A u w jn s2 F2 : cloned F b j F' n -> on s1 F' h n A -> u <> h ->
  (forall x, w = At x -> F x <> None) -> assigned s1 F' u w jn s2 F2 -> content s2 F2 h j.
Proof.
  intros C H N Hx As. exists n, A. eapply as_beside; eauto; [|apply C].
  intros x E B. apply (cl_apart _ _ _ _ _ C) in B. now apply (Hx x E).
Qed.
Lemma orig_safe_set s1 F b j F' n A u x jn s2 F2 y Y jy : wfdom F -> cloned F b j F' n -> below F' n x ->
  assigned s1 F' u (At x) jn s2 F2 -> on s1 F' y Y A -> F Y <> None -> reads F Y jy -> y <> u -> content s2 F2 y jy.
Proof.
  intros W C Hx As Hy DY R N. exists Y, A. eapply as_beside; eauto.
  - intros z E B. injection E as <-. apply (clone_old_below F b j F' n Y x W C DY) in B. apply (cl_apart _ _ _ _ _ C) in Hx. congruence.
  - eapply reads_submap; eauto. intros z f; apply (cl_old _ _ _ _ _ C).
Qed.
End WithVol.
