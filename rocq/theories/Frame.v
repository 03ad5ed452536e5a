(** Calls read and write only memory they can reach.

    [B] marks blocks of memory that belong to somebody else.  If a call succeeds in
    a memory where these blocks do not exist ([cut]), then it succeeds in every
    memory that has them with whatever contents, with the same result, does the same
    to the rest and leaves them as they are.  No invariant is assumed: this holds of
    every call in every state. *)
From Verif Require Import Base Spec Lex Alloc Mem Api Double Vocab Scene Dom Hist HistRun HistMany MemProofs.

Section Frame.
Context (B : N -> bool).

Definition hide {X} (f : addr -> option X) (a : addr) : option X := if B (fst a) then None else f a.
Definition hideN {X} (f : N -> option X) (b : N) : option X := if B b then None else f b.

(** [t] is [s] without the blocks [B]. *)
Record cut (s t : st) : Prop := {
  cu_bytes : forall a, sbytes t a = hide (sbytes s) a;
  cu_nodes : forall a, snodes t a = hide (snodes s) a;
  cu_vals : forall a, svals t a = hide (svals s) a;
  cu_strs : forall a, sstrs t a = hide (sstrs s) a;
  cu_allocs : forall b, sallocs t b = hideN (sallocs s) b;
  cu_bsize : forall b, sbsize t b = hideN (sbsize s) b;
  cu_next : snext t = snext s;
  cu_cache : scache t = scache s;
  cu_cnt : scnt t = scnt s;
  cu_closed : forall p z, sstrs t p = Some z -> B (fst (zData z)) = false;
  cu_old : forall b, B b = true -> b < snext t
}.
(** The blocks [B] are the same in [s] and [s']. *)
Record same (s s' : st) : Prop := {
  sa_bytes : forall a, B (fst a) = true -> sbytes s' a = sbytes s a;
  sa_nodes : forall a, B (fst a) = true -> snodes s' a = snodes s a;
  sa_vals : forall a, B (fst a) = true -> svals s' a = svals s a;
  sa_strs : forall a, B (fst a) = true -> sstrs s' a = sstrs s a;
  sa_allocs : forall b, B b = true -> sallocs s' b = sallocs s b;
  sa_bsize : forall b, B b = true -> sbsize s' b = sbsize s b
}.
Lemma same_refl s : same s s.
Proof. split; auto. Qed.
Lemma same_trans s1 s2 s3 : same s1 s2 -> same s2 s3 -> same s1 s3.
Proof.
  intros [] []. split; intros x Hx.
  - rewrite (sa_bytes1 x Hx). auto.
  - rewrite (sa_nodes1 x Hx). auto.
  - rewrite (sa_vals1 x Hx). auto.
  - rewrite (sa_strs1 x Hx). auto.
  - rewrite (sa_allocs1 x Hx). auto.
  - rewrite (sa_bsize1 x Hx). auto.
Qed.

Definition own (a : addr) : Prop := B (fst a) = false.
Definition framed {X} (m : M X) (Q : X -> Prop) : Prop :=
  forall s t x t', cut s t -> m t = Ok (x, t') -> exists s', m s = Ok (x, s') /\ cut s' t' /\ same s s' /\ Q x.
Definition any {X} (_ : X) : Prop := True.

Lemma fr_ret {X} (x : X) (Q : X -> Prop) : Q x -> framed (ret x) Q.
Proof. intros q s t y t' C E. injection E as <- <-. exists s. repeat split; auto; apply C. Qed.
Lemma fr_fail {X} e (Q : X -> Prop) : framed (fail e) Q.
Proof. intros s t y t' C E. discriminate E. Qed.
Lemma fr_lift {X} (r : res X) (Q : X -> Prop) : (forall x, r = Ok x -> Q x) -> framed (lift r) Q.
Proof. intros q s t y t' C E. destruct r as [x|]; [|discriminate E]. exact (fr_ret x Q (q _ eq_refl) s t y t' C E). Qed.
Lemma fr_bind {X Y} (m : M X) (f : X -> M Y) Q R :
  framed m Q -> (forall x, Q x -> framed (f x) R) -> framed (bind m f) R.
Proof.
  intros F G s t y t' C E. unfold bind in *. destruct (m t) as [[x t1]|] eqn:E1; [|discriminate E].
  destruct (F _ _ _ _ C E1) as (s1 & M1 & C1 & S1 & q). destruct (G x q _ _ _ _ C1 E) as (s2 & M2 & C2 & S2 & r).
  exists s2. rewrite M1. split; [exact M2|]. split; [exact C2|]. split; [eapply same_trans; eassumption|exact r].
Qed.
Lemma fr_weak {X} (m : M X) (Q R : X -> Prop) : framed m Q -> (forall x, Q x -> R x) -> framed m R.
Proof. intros F G s t y t' C E. destruct (F _ _ _ _ C E) as (s1 & M1 & C1 & S1 & q). exists s1. auto. Qed.
Lemma fr_any {X} (m : M X) Q : framed m Q -> framed m any.
Proof. intro F. apply (fr_weak m Q any F). intros; exact Logic.I. Qed.
Lemma fr_ext {X} (m m' : M X) Q : (forall s, m s = m' s) -> framed m' Q -> framed m Q.
Proof. intros e F s t y t' C E. rewrite e in *. now apply (F s t). Qed.
Lemma fr_assoc {X Y Z} (m : M X) (f : X -> M Y) (g : Y -> M Z) Q :
  framed (bind m (fun x => bind (f x) g)) Q -> framed (bind (bind m f) g) Q.
Proof. apply fr_ext. intro s. unfold bind. now destruct (m s) as [[]|]. Qed.
Lemma fr_unit {X Y} (x : X) (f : X -> M Y) Q : framed (f x) Q -> framed (bind (ret x) f) Q.
Proof. now apply fr_ext. Qed.

(** *** The primitives *)
Lemma hide_some {X} (f : addr -> option X) a x : hide f a = Some x -> B (fst a) = false /\ f a = Some x.
Proof. unfold hide. destruct (B (fst a)); [discriminate|auto]. Qed.
Lemma hideN_some {X} (f : N -> option X) a x : hideN f a = Some x -> B a = false /\ f a = Some x.
Proof. unfold hideN. destruct (B a); [discriminate|auto]. Qed.

Lemma fr_deref w : framed (deref w) any.
Proof. destruct w; [apply fr_fail..|now apply fr_ret]. Qed.
Lemma fr_is_null w : framed (is_null w) any.
Proof. destruct w; [apply fr_fail|now apply fr_ret..]. Qed.
Lemma fr_getNode a : framed (getNode a) (fun _ => own a).
Proof.
  intros s t y t' C E. unfold getNode, get in *. rewrite (cu_nodes _ _ C) in E.
  destruct (hide (snodes s) a) eqn:H; [|discriminate E]. apply hide_some in H as [H1 H2]. injection E as <- <-.
  exists s. rewrite H2. split; auto. split; [exact C|]. split; [apply same_refl|exact H1].
Qed.
Lemma fr_getVal a : framed (getVal a) (fun _ => own a).
Proof.
  intros s t y t' C E. unfold getVal, get in *. rewrite (cu_vals _ _ C) in E.
  destruct (hide (svals s) a) eqn:H; [|discriminate E]. apply hide_some in H as [H1 H2]. injection E as <- <-.
  exists s. rewrite H2. split; auto. split; [exact C|]. split; [apply same_refl|exact H1].
Qed.
Lemma fr_getZ a : framed (getZ a) (fun z => own a /\ own (zData z)).
Proof.
  intros s t y t' C E. unfold getZ, get in *. destruct (sstrs t a) as [z|] eqn:H0; [|discriminate E].
  pose proof (cu_closed _ _ C _ _ H0) as Hz. rewrite (cu_strs _ _ C) in H0. apply hide_some in H0 as [H1 H2].
  injection E as <- <-. exists s. rewrite H2. split; auto. split; [exact C|]. split; [apply same_refl|now split].
Qed.

Lemma hide_upd {X} (f g : addr -> option X) p x : own p -> (forall a, g a = hide f a) ->
  forall a, upd g p x a = hide (upd f p x) a.
Proof.
  intros Hp H a. unfold upd, hide in *. destruct (addr_eqb a p) eqn:E; [|apply H].
  unfold addr_eqb in E. apply andb_prop in E as [E _]. apply N.eqb_eq in E. unfold own in Hp. now rewrite E, Hp.
Qed.
Lemma upd_far {X} (f : addr -> option X) p x a : own p -> B (fst a) = true -> upd f p x a = f a.
Proof.
  intros Hp H. unfold upd. destruct (addr_eqb a p) eqn:E; auto. unfold addr_eqb in E. apply andb_prop in E as [E _].
  apply N.eqb_eq in E. unfold own in Hp. congruence.
Qed.
Lemma hide_updN {X} (f g : N -> option X) b x : B b = false -> (forall a, g a = hideN f a) ->
  forall a, updN g b x a = hideN (updN f b x) a.
Proof. intros Hb H a. unfold updN, hideN in *. destruct (a =? b) eqn:E; [|apply H]. apply N.eqb_eq in E. now rewrite E, Hb. Qed.
Lemma updN_far {X} (f : N -> option X) b x a : B b = false -> B a = true -> updN f b x a = f a.
Proof. intros Hb H. unfold updN. destruct (a =? b) eqn:E; auto. apply N.eqb_eq in E. congruence. Qed.
Lemma hide_bytes f g p bs : own p -> (forall a, g a = hide f a) -> forall a, upd_bytes g p bs a = hide (upd_bytes f p bs) a.
Proof.
  intros Hp H a. unfold upd_bytes, hide in *. destruct (fst a =? fst p) eqn:E; cbn [andb]; [|apply H].
  apply N.eqb_eq in E. unfold own in Hp. rewrite H, E, Hp. reflexivity.
Qed.
Lemma bytes_far f p bs a : own p -> B (fst a) = true -> upd_bytes f p bs a = f a.
Proof.
  intros Hp H. unfold upd_bytes. destruct (fst a =? fst p) eqn:E; auto. apply N.eqb_eq in E. unfold own in Hp. congruence.
Qed.
Lemma hide_drop {X} (f g : addr -> option X) b : (forall a, g a = hide f a) -> forall a, drop_blk g b a = hide (drop_blk f b) a.
Proof. intros H a. unfold drop_blk, hide in *. destruct (fst a =? b); [now destruct (B (fst a))|apply H]. Qed.
Lemma drop_far {X} (f : addr -> option X) b a : B b = false -> B (fst a) = true -> drop_blk f b a = f a.
Proof. intros Hb H. unfold drop_blk. destruct (fst a =? b) eqn:E; auto. apply N.eqb_eq in E. congruence. Qed.

Lemma fr_putNode a n : own a -> framed (putNode a n) any.
Proof.
  intros Ha s t y t' C E. injection E as <- <-. eexists. split; [reflexivity|]. destruct C. split; [|split; [|exact Logic.I]].
  - split; cbn; auto. now apply hide_upd.
  - split; cbn; auto. intros; now apply upd_far.
Qed.
Lemma fr_putVal a n : own a -> framed (putVal a n) any.
Proof.
  intros Ha s t y t' C E. injection E as <- <-. eexists. split; [reflexivity|]. destruct C. split; [|split; [|exact Logic.I]].
  - split; cbn; auto. now apply hide_upd.
  - split; cbn; auto. intros; now apply upd_far.
Qed.
Lemma fr_putZ a z : own a -> own (zData z) -> framed (putZ a z) any.
Proof.
  intros Ha Hz s t y t' C E. injection E as <- <-. eexists. split; [reflexivity|]. destruct C. split; [|split; [|exact Logic.I]].
  - split; cbn; auto; [now apply hide_upd|]. intros p w. unfold upd. destruct (addr_eqb p a); [|apply cu_closed0].
    intro e. injection e as <-. exact Hz.
  - split; cbn; auto. intros; now apply upd_far.
Qed.
Lemma fr_modNode a f : framed (modNode a f) any.
Proof. eapply fr_bind; [apply fr_getNode|]. intros n Hn. now apply fr_putNode. Qed.
Lemma fr_store a c bs : own a -> framed (store a c bs) any.
Proof.
  intros Ha s t y t' C E. unfold store in *. destruct (c <? N.of_nat (length bs)); [discriminate E|]. injection E as <- <-.
  eexists. split; [reflexivity|]. destruct C. split; [|split; [|exact Logic.I]].
  - split; cbn; auto. now apply hide_bytes.
  - split; cbn; auto. intros; now apply bytes_far.
Qed.
Lemma load_hide f g n : (forall a, g a = hide f a) -> forall b o l, load_from g b o n = Some l -> load_from f b o n = Some l.
Proof.
  intro H. induction n as [|n IH]; intros b o l; cbn [load_from]; auto.
  rewrite H. destruct (hide f (b, o)) eqn:E; [|discriminate]. apply hide_some in E as [_ E]. rewrite E.
  destruct (load_from g b (o + 1) n) eqn:L; [|discriminate]. now rewrite (IH _ _ _ L).
Qed.
Lemma fr_load a len : framed (load a len) any.
Proof.
  intros s t y t' C E. unfold load, get in *. destruct (load_from (sbytes t) _ _ _) eqn:L; [|discriminate E].
  injection E as <- <-. rewrite (load_hide _ _ _ (cu_bytes _ _ C) _ _ _ L). exists s. split; auto. split; [exact C|].
  split; [apply same_refl|exact Logic.I].
Qed.
Lemma fr_load_w w len : framed (load_w w len) any.
Proof. eapply fr_bind; [apply fr_deref|]. intros; apply fr_load. Qed.

Lemma run_hide f g b : B b = false -> (forall a, g a = hide f a) -> forall n o, Mem.run g b o n = Mem.run f b o n.
Proof.
  intros Hb H. induction n as [|n IH]; intro o; cbn [Mem.run]; auto. rewrite H. unfold hide. cbn [fst]. rewrite Hb.
  destruct (f (b, o)); auto. now rewrite IH.
Qed.
Lemma text_own s t a : cut s t -> own a -> text_at t a = text_at s a.
Proof.
  intros C Ha. unfold text_at. rewrite (cu_bsize _ _ C). unfold hideN. unfold own in Ha. rewrite Ha.
  destruct (sbsize s (fst a)); auto. apply run_hide; [exact Ha|apply C].
Qed.
Lemma text_foreign s t a : cut s t -> B (fst a) = true -> text_at t a = [].
Proof. intros C Ha. unfold text_at. rewrite (cu_bsize _ _ C). unfold hideN. now rewrite Ha. Qed.
(** Reading up from [a]: either [a] is known to be the program's own, or what is
    read from nowhere makes the call fail. *)
Lemma fr_read_own {Y} a (k : bytes -> M Y) Q : own a -> (forall x, framed (k x) Q) -> framed (bind (readable a) k) Q.
Proof.
  intros Ha H s t y t' C E. unfold bind, readable in *. rewrite (text_own _ _ _ C Ha) in E. now apply (H _ s t).
Qed.
Lemma fr_read {Y} a (k : bytes -> M Y) Q : (forall t, exists e, k [] t = Err e) -> (forall x, framed (k x) Q) ->
  framed (bind (readable a) k) Q.
Proof.
  intros H0 H. destruct (B (fst a)) eqn:Ha; [|now apply fr_read_own].
  intros s t y t' C E. unfold bind, readable in *. rewrite (text_foreign _ _ _ C Ha) in E. destruct (H0 t) as [e H1].
  rewrite H1 in E. discriminate E.
Qed.

Lemma next_own s t : cut s t -> B (snext s) = false.
Proof. intro C. destruct (B (snext s)) eqn:H; auto. apply (cu_old _ _ C) in H. rewrite (cu_next _ _ C) in H. lia. Qed.
Lemma fr_alloc A n : framed (zj_allocatorAlloc A n) own.
Proof.
  intros s t y t' C E. pose proof (next_own _ _ C) as Hn. unfold zj_allocatorAlloc in *.
  rewrite (cu_allocs _ _ C), (cu_next _ _ C), (cu_cache _ _ C), (cu_cnt _ _ C) in E.
  destruct (hideN (sallocs s) A) as [ar|] eqn:HA; [|discriminate E]. apply hideN_some in HA as [HB HA]. rewrite HA.
  destruct (arena_alloc (snext s) ar (u32 n)) as [o|]; [|discriminate E]. cbv zeta in *.
  assert (Hb : forall b, match onew o with Some m => updN (sbsize t) (snext s) (Some m) | None => sbsize t end b
    = hideN (match onew o with Some m => updN (sbsize s) (snext s) (Some m) | None => sbsize s end) b).
  { destruct (onew o); [|apply C]. apply hide_updN; [exact Hn|apply C]. }
  rewrite Hb in E. destruct (hideN _ (fst (oaddr o))) as [tot|] eqn:Ht; [|discriminate E].
  apply hideN_some in Ht as [Ho Ht]. rewrite Ht. destruct (tot <? _); [discriminate E|]. injection E as <- <-.
  eexists. split; [reflexivity|]. destruct C. split; [|split; [|exact Ho]].
  - split; cbn; auto.
    + now apply hide_updN.
    + intros b Hb'. apply cu_old0 in Hb'. rewrite <- cu_next0. destruct (onew o); lia.
  - split; cbn; auto.
    + intros; now apply updN_far.
    + destruct (onew o); auto. intros; now apply updN_far.
Qed.
Lemma fr_NewAllocator : framed zj_NewAllocator any.
Proof.
  intros s t y t' C E. pose proof (next_own _ _ C) as Hn. injection E as <- <-. rewrite (cu_next _ _ C). eexists. split; [reflexivity|].
  destruct C. split; [|split; [|exact Logic.I]].
  - split; cbn; auto.
    + now apply hide_updN.
    + now apply hide_updN.
    + now rewrite cu_cnt0.
    + intros b Hb. apply cu_old0 in Hb. lia.
  - split; cbn; auto; intros; now apply updN_far.
Qed.
Lemma fr_free_blk b : framed (free_blk b) any.
Proof.
  intros s t y t' C E. unfold free_blk in *. rewrite (cu_bsize _ _ C) in E. destruct (hideN (sbsize s) b) eqn:H; [|discriminate E].
  apply hideN_some in H as [Hb H]. rewrite H. injection E as <- <-. eexists. split; [reflexivity|].
  destruct C. split; [|split; [|exact Logic.I]].
  - split; cbn; auto; try (now apply hide_drop).
    + now apply hide_updN.
    + now rewrite cu_cnt0.
    + intros p z. unfold drop_blk. destruct (fst p =? b); [discriminate|apply cu_closed0].
  - split; cbn; auto; intros; first [now apply drop_far|now apply updN_far].
Qed.
Lemma fr_free_blks l : framed (free_blks l) any.
Proof. induction l as [|b l IH]; cbn [free_blks]; [now apply fr_ret|]. eapply fr_bind; [apply fr_free_blk|]. auto. Qed.
Lemma fr_Release A : framed (zj_ReleaseAllocator A) any.
Proof.
  unfold zj_ReleaseAllocator. apply fr_bind with (Q := fun _ => B A = false).
  - intros s t y t' C E. unfold get in *. rewrite (cu_allocs _ _ C) in E. destruct (hideN (sallocs s) A) eqn:H; [|discriminate E].
    apply hideN_some in H as [Hb H]. rewrite H. injection E as <- <-. exists s. split; auto. split; [exact C|].
    split; [apply same_refl|exact Hb].
  - intros ar HA. destruct (rev (map ckBlk ar)) as [|r o]; [apply fr_fail|].
    eapply fr_bind; [apply fr_free_blks|]. intros _ _. eapply fr_bind; [apply fr_free_blk|]. intros _ _.
    intros s t y t' C E. injection E as <- <-. eexists. split; [reflexivity|]. destruct C. split; [|split; [|exact Logic.I]].
    + split; cbn; auto. now apply hide_updN.
    + split; cbn; auto; intros; now apply updN_far.
Qed.
Lemma fr_user_buf bs : framed (user_buf bs) own.
Proof.
  intros s t y t' C E. pose proof (next_own _ _ C) as Hn. unfold user_buf in *.
  destruct (two32 <=? N.of_nat (length bs)); [discriminate E|]. cbv zeta in *. injection E as <- <-. rewrite (cu_next _ _ C).
  eexists. split; [reflexivity|]. destruct C. split; [|split; [|exact Hn]].
  - split; cbn; auto.
    + now apply hide_bytes.
    + now apply hide_updN.
    + intros b Hb. apply cu_old0 in Hb. lia.
  - split; cbn; auto; intros; [now apply bytes_far|now apply updN_far].
Qed.
Lemma fr_user_free b : framed (user_free b) any.
Proof.
  intros s t y t' C E. unfold user_free in *. rewrite (cu_bsize _ _ C) in E. destruct (hideN (sbsize s) b) eqn:H; [|discriminate E].
  apply hideN_some in H as [Hb H]. rewrite H. injection E as <- <-. eexists. split; [reflexivity|].
  destruct C. split; [|split; [|exact Logic.I]].
  - split; cbn; auto; try (now apply hide_drop).
    + now apply hide_updN.
    + intros p z. unfold drop_blk. destruct (fst p =? b); [discriminate|apply cu_closed0].
  - split; cbn; auto; intros; first [now apply drop_far|now apply updN_far].
Qed.
Lemma fr_user_write b bs : framed (user_write b bs) any.
Proof.
  intros s t y t' C E. unfold user_write in *. rewrite (cu_bsize _ _ C) in E. destruct (hideN (sbsize s) b) eqn:H; [|discriminate E].
  apply hideN_some in H as [Hb H]. rewrite (cu_allocs _ _ C) in E. unfold hideN in E. rewrite Hb in E. rewrite H.
  destruct (sallocs s b); [discriminate E|]. destruct (_ <? _); [discriminate E|]. injection E as <- <-.
  eexists. split; [reflexivity|]. destruct C. split; [|split; [|exact Logic.I]].
  - split; cbn; auto. now apply hide_bytes.
  - split; cbn; auto. intros; now apply bytes_far.
Qed.
Lemma fr_getcache : framed (fun st0 => Ok (scache st0, st0)) any.
Proof.
  intros s t y t' C E. injection E as <- <-. exists s. rewrite (cu_cache _ _ C). split; auto. split; [exact C|].
  split; [apply same_refl|exact Logic.I].
Qed.
Lemma fr_setcache w : framed (fun st0 => Ok (tt, set_cache w st0)) any.
Proof.
  intros s t y t' C E. injection E as <- <-. eexists. split; [reflexivity|]. destruct C. split; [|split; [|exact Logic.I]];
  split; cbn; auto.
Qed.
Lemma fr_rType n : framed (rType n) any.
Proof. apply fr_lift. intros; exact Logic.I. Qed.
Lemma fr_rLen n : framed (rLen n) any.
Proof. apply fr_lift. intros; exact Logic.I. Qed.
Lemma fr_rKeyLen n : framed (rKeyLen n) any.
Proof. apply fr_lift. intros; exact Logic.I. Qed.
Lemma fr_lift_any {X} (r : res X) : framed (lift r) any.
Proof. apply fr_lift. intros; exact Logic.I. Qed.

(** *** The functions of Api.v *)
Create HintDb frm.
Hint Resolve fr_deref fr_is_null fr_getNode fr_getVal fr_getZ fr_putNode fr_putVal fr_putZ fr_modNode fr_store fr_load
  fr_load_w fr_alloc fr_NewAllocator fr_free_blk fr_Release fr_user_buf fr_user_free fr_user_write fr_getcache fr_setcache
  fr_rType fr_rLen fr_rKeyLen fr_lift_any fr_fail : frm.
Hint Extern 1 (own _) => (unfold own in *; cbn in *; assumption) : frm.
Ltac fr_ok := solve [exact Logic.I | assumption | cbn in *; intuition (auto; discriminate)].
Ltac fr :=
  cbv zeta;
  match goal with
  | |- framed (bind (readable _) _) _ =>
      first [apply fr_read_own; [fr_ok|intro; fr] | apply fr_read; [intro; eexists; reflexivity|intro; fr]]
  | |- framed (bind (if ?b then _ else _) _) _ => destruct b; fr
  | |- framed (bind (match ?b with _ => _ end) _) _ => destruct b; fr
  | |- framed (bind (bind _ _) _) _ => apply fr_assoc; fr
  | |- framed (bind (ret _) _) _ => apply fr_unit; fr
  | |- framed (bind _ _) _ => eapply fr_bind; [solve [eauto with frm]|intros ? ?; cbv beta in *; repeat match goal with H : _ /\ _ |- _ => destruct H end; fr]
  | |- framed (ret _) _ => apply fr_ret; try fr_ok
  | |- framed (if ?b then _ else _) _ => destruct b; fr
  | |- framed (match ?b with _ => _ end) _ => destruct b; fr
  | |- framed _ any => first [solve [eauto with frm]|eapply fr_any; solve [eauto with frm]|idtac]
  | |- _ => first [solve [eauto with frm]|idtac]
  end.

Lemma fr_NewValue A : framed (zj_NewValue A) own.
Proof. unfold zj_NewValue. fr. Qed.
Lemma fr_innerNewValue A n : framed (zj_innerNewValue A n) own.
Proof. unfold zj_innerNewValue. fr. Qed.
Lemma fr_newNode A : framed (newNode A) own.
Proof. unfold newNode. fr. Qed.
Lemma fr_newString A n : framed (zj_newString A n) own.
Proof. unfold zj_newString. fr. Qed.
Hint Resolve fr_NewValue fr_innerNewValue fr_newNode fr_newString : frm.
Lemma fr_reset p : framed (zj_reset p) any.
Proof. unfold zj_reset. fr. Qed.
Hint Resolve fr_reset : frm.
Lemma fr_appendStr p src : framed (zj_appendStr p src) any.
Proof. unfold zj_appendStr. fr. Qed.
Lemma fr_appendChar p c : framed (zj_appendChar p c) any.
Proof. unfold zj_appendChar. fr. Qed.
Lemma fr_str p : framed (zj_str p) own.
Proof. unfold zj_str. fr. Qed.
Hint Resolve fr_appendStr fr_appendChar fr_str : frm.
Lemma fr_appendEnd p : framed (zj_appendEnd p) any.
Proof. unfold zj_appendEnd. fr. Qed.
Hint Resolve fr_appendEnd : frm.
Lemma fr_open zn A ty c n r : framed (open_container zn A ty c n r) any.
Proof. unfold open_container. fr. Qed.
Lemma fr_scalar n ty a l : framed (set_scalar n ty a l) any.
Proof. unfold set_scalar. fr. Qed.
Hint Resolve fr_open fr_scalar : frm.
Lemma fr_switch zn A s tot n r : framed (parse_switch zn A s tot n r) any.
Proof. unfold parse_switch. fr. Qed.
Lemma fr_parse_key s tot n r : framed (parse_key s tot n r) any.
Proof. unfold parse_key. fr. Qed.
Hint Resolve fr_switch fr_parse_key : frm.
Lemma fr_parse_loop zn A s tot root fuel : forall m n r, framed (parse_loop zn fuel A s tot root m n r) any.
Proof. induction fuel as [|fuel IH]; intros m n r; cbn [parse_loop]; fr. Qed.
Hint Resolve fr_parse_loop : frm.

(** zj_ParseFast reads v->N again after it has been set: what it finds is what was
    put there. *)
Definition keeps {X} (v : addr) (m : M X) : Prop := forall s x s', m s = Ok (x, s') -> svals s' v = svals s v.
Lemma keeps_alloc v A n : keeps v (zj_allocatorAlloc A n).
Proof.
  intros s x s'. unfold zj_allocatorAlloc. destruct (sallocs s A); [|discriminate]. destruct (arena_alloc _ _ _); [|discriminate].
  cbv zeta. destruct (match onew _ with Some _ => _ | None => _ end _); [|discriminate]. destruct (_ <? _); [discriminate|].
  intro E. now injection E as <- <-.
Qed.
Lemma keeps_newNode v A : keeps v (newNode A).
Proof.
  intros s x s'. unfold newNode, bind. destruct (zj_allocatorAlloc A sizeof_node s) as [[p s1]|] eqn:E1; [|discriminate].
  cbn. intro E. injection E as <- <-. cbn. now apply (keeps_alloc v A sizeof_node) in E1.
Qed.
Lemma keeps_mod v a f : keeps v (modNode a f).
Proof.
  intros s x s'. unfold modNode, bind, getNode, get. destruct (snodes s a); [|discriminate]. cbn. intro E.
  now injection E as <- <-.
Qed.
Lemma run_bind {X Y} (m : M X) (f : X -> M Y) s y s' : bind m f s = Ok (y, s') -> exists x s1, m s = Ok (x, s1) /\ f x s1 = Ok (y, s').
Proof. unfold bind. destruct (m s) as [[x s1]|]; [eauto|discriminate]. Qed.
Lemma keeps_bind {X Y} v (m : M X) (f : X -> M Y) : keeps v m -> (forall x, keeps v (f x)) -> keeps v (bind m f).
Proof. intros K H s y s' E. apply run_bind in E as (x & s1 & E1 & E2). rewrite (H x _ _ _ E2). eauto. Qed.
Lemma keeps_ret {X} v (x : X) : keeps v (ret x).
Proof. intros s y s' E. now injection E as <- <-. Qed.

Definition parse_tail (zn : bool) (v s root : addr) (A : N) (src : option addr) : M bool :=
  let reject := match src with
                | None => putVal v (mkVal Null A) ;;; ret false
                | Some p => n <- getNode p ;; putNode root n ;;; ret false
                end in
  text <- readable s ;;
  let tot := N.of_nat (length text) in
  let fuel := (2 * length text + 2)%nat in
  sw <- parse_switch zn A s tot root text ;;
  r <- match sw with
       | Stop => ret None
       | Down n rest => parse_loop zn fuel A s tot root Item n rest
       | Break rest => parse_loop zn fuel A s tot root Item root rest
       end ;;
  match r with
  | None => reject
  | Some rest =>
      q <- lift (zj_peekAndConsume 0 rest) ;;
      if fst q then ret true else reject
  end.
Definition parse_alt (zn : bool) (v s : addr) : M bool :=
  x <- getVal v ;;
  match vN x with
  | Null =>
      n <- newNode (vA x) ;;
      putVal v (mkVal (At n) (vA x)) ;;;
      modNode n (wPrev Null) ;;;
      modNode n (wNext Null) ;;;
      modNode n (wFather Null) ;;;
      modNode n (wKey Null) ;;;
      parse_tail zn v s n (vA x) None
  | At a =>
      src <- newNode (vA x) ;;
      n <- getNode a ;;
      putNode src n ;;;
      parse_tail zn v s a (vA x) (Some src)
  | Undef => fail EDeref
  end.
Lemma bind_eq {X Y} (m : M X) (f g : X -> M Y) s : (forall x s', m s = Ok (x, s') -> f x s' = g x s') -> bind m f s = bind m g s.
Proof. intro H. unfold bind. destruct (m s) as [[x s']|]; auto. Qed.
Lemma bind_assoc {X Y Z} (m : M X) (f : X -> M Y) (g : Y -> M Z) s : bind (bind m f) g s = bind m (fun x => bind (f x) g) s.
Proof. unfold bind. now destruct (m s) as [[]|]. Qed.
Lemma parse_alt_eq zn v s st0 : parse_fast zn v s st0 = parse_alt zn v s st0.
Proof.
  unfold parse_fast, parse_alt. apply bind_eq. intros x s0 E0. destruct (vN x) as [| |a] eqn:Ex; [reflexivity| |].
  - rewrite bind_assoc. apply bind_eq. intros n s1 E1. rewrite bind_assoc. apply bind_eq. intros [] s2 E2.
    rewrite bind_assoc. apply bind_eq. intros [] s3 E3. rewrite bind_assoc. apply bind_eq. intros [] s4 E4.
    rewrite bind_assoc. apply bind_eq. intros [] s5 E5. rewrite bind_assoc. apply bind_eq. intros [] s6 E6.
    assert (H : svals s6 v = Some (mkVal (At n) (vA x))).
    { rewrite (keeps_mod v _ _ _ _ _ E6), (keeps_mod v _ _ _ _ _ E5), (keeps_mod v _ _ _ _ _ E4), (keeps_mod v _ _ _ _ _ E3).
      injection E2 as <-. cbn. unfold upd, addr_eqb. now rewrite !N.eqb_refl. }
    cbn. unfold getVal, get, bind at 1. rewrite H. reflexivity.
  - rewrite bind_assoc. apply bind_eq. intros p s1 E1. rewrite bind_assoc. apply bind_eq. intros n s2 E2.
    rewrite bind_assoc. apply bind_eq. intros [] s3 E3.
    assert (H : svals s3 v = Some x).
    { injection E3 as <-. cbn. unfold getNode, get in E2. destruct (snodes s1 a); [|discriminate E2]. injection E2 as _ <-.
      rewrite (keeps_newNode v _ _ _ _ E1). unfold getVal, get in E0. destruct (svals st0 v) as [y|] eqn:Ey; [|discriminate E0].
      injection E0 as -> ->. exact Ey. }
    cbn. unfold getVal, get, bind at 1. rewrite H. unfold bind at 1. rewrite Ex. reflexivity.
Qed.
Lemma fr_parse_tail zn v s root A src : own v -> own root -> framed (parse_tail zn v s root A src) any.
Proof. intros Hv Hr. unfold parse_tail. fr. Qed.
Hint Resolve fr_parse_tail : frm.
Lemma fr_parse_fast zn v s : framed (parse_fast zn v s) any.
Proof. apply (fr_ext _ (parse_alt zn v s)); [apply parse_alt_eq|]. unfold parse_alt. fr. Qed.
Lemma fr_ParseFast v s : framed (zj_ParseFast v s) any.
Proof. exact (fr_parse_fast false v s). Qed.
Hint Resolve fr_ParseFast : frm.
Lemma fr_ParseLen v s n : framed (zj_ParseLen v s n) any.
Proof. unfold zj_ParseLen. fr. Qed.
Lemma fr_strLen s : framed (zj_strLen s) any.
Proof. unfold zj_strLen. fr. Qed.
Hint Resolve fr_ParseLen fr_strLen : frm.
Lemma fr_Parse v s : framed (zj_Parse v s) any.
Proof. unfold zj_Parse. fr. Qed.
Hint Resolve fr_Parse : frm.

Definition ownw (w : word) : Prop := match w with At a => own a | _ => True end.
Definition owno (o : option word) : Prop := match o with Some w => ownw w | None => True end.
Lemma fr_str_switch str n : framed (stringify_switch str n) any.
Proof. unfold stringify_switch. fr. Qed.
Lemma fr_str_key str n : framed (stringify_key str n) any.
Proof. unfold stringify_key. fr. Qed.
Hint Resolve fr_str_switch fr_str_key : frm.
Lemma fr_str_loop root str fuel : forall m n, framed (stringify_loop fuel root str m n) any.
Proof. induction fuel as [|fuel IH]; intros m n; cbn [stringify_loop]; fr. Qed.
Hint Resolve fr_str_loop : frm.
Lemma fr_Stringify fuel v : B 0 = false -> framed (zj_Stringify fuel v) ownw.
Proof. intro H0. unfold zj_Stringify. fr. Qed.
Hint Resolve fr_Stringify : frm.

Lemma fr_with_type {X} v ty (k : zval -> addr -> node -> M (option X)) (Q : option X -> Prop) :
  Q None -> (forall x a n, own v -> own a -> framed (k x a n) Q) -> framed (with_type v ty k) Q.
Proof. intros H0 H. unfold with_type. fr. Qed.
Lemma fr_with_key {X} v (k : zval -> node -> M (option X)) (Q : option X -> Prop) :
  Q None -> (forall x n, own v -> framed (k x n) Q) -> framed (with_key v k) Q.
Proof. intros H0 H. unfold with_key. fr. Qed.
Lemma fr_copy_out A w n : framed (copy_out A w n) ownw.
Proof. unfold copy_out. fr. Qed.
Lemma fr_unescape_out A w n : framed (unescape_out A w n) ownw.
Proof.
  unfold unescape_out. eapply fr_bind; [apply fr_alloc|]. intros p Hp. eapply fr_bind; [apply fr_deref|]. intros a _.
  destruct n as [|n]; [|fr].
  apply (fr_ext _ (o <- lift (zj_unEscapeStr [] (Z.of_N 0)) ;; store p (u32 (0 + 1)) (o ++ [0]) ;;; ret (At p))).
  - intro s. unfold readable, bind at 1. now destruct (text_at s a).
  - fr.
Qed.
Hint Resolve fr_copy_out fr_unescape_out : frm.
Ltac fr_typed := apply fr_with_type; [exact Logic.I|intros; fr].
Ltac fr_keyed := apply fr_with_key; [exact Logic.I|intros; fr].
Lemma fr_GetStrFast v : framed (zj_GetStrFast v) any. Proof. unfold zj_GetStrFast. fr_typed. Qed.
Lemma fr_GetStr v : framed (zj_GetStr v) owno. Proof. unfold zj_GetStr. fr_typed. Qed.
Lemma fr_GetUnEscapeStr v : framed (zj_GetUnEscapeStr v) owno. Proof. unfold zj_GetUnEscapeStr. fr_typed. Qed.
Lemma fr_GetNumFast v : framed (zj_GetNumFast v) any. Proof. unfold zj_GetNumFast. fr_typed. Qed.
Lemma fr_GetNumStr v : framed (zj_GetNumStr v) owno. Proof. unfold zj_GetNumStr. fr_typed. Qed.
Lemma fr_GetKey v : framed (zj_GetKey v) owno. Proof. unfold zj_GetKey. fr_keyed. Qed.
Lemma fr_GetUnEscapeKey v : framed (zj_GetUnEscapeKey v) owno. Proof. unfold zj_GetUnEscapeKey. fr_keyed. Qed.
Lemma fr_GetKeyFast v : framed (zj_GetKeyFast v) any. Proof. unfold zj_GetKeyFast. fr_keyed. Qed.
Lemma fr_local w n : framed (local_copy w n) any. Proof. unfold local_copy. fr. Qed.
Hint Resolve fr_local : frm.
Lemma fr_strToInt w n : framed (zj_strToInt w n) any. Proof. unfold zj_strToInt. fr. Qed.
Lemma fr_strToLong w n : framed (zj_strToLong w n) any. Proof. unfold zj_strToLong. fr. Qed.
Hint Resolve fr_strToInt fr_strToLong : frm.
Lemma fr_GetInt v : framed (zj_GetInt v) any. Proof. unfold zj_GetInt. fr_typed. Qed.
Lemma fr_GetLong v : framed (zj_GetLong v) any. Proof. unfold zj_GetLong. fr_typed. Qed.
Lemma fr_GetLongLong v : framed (zj_GetLongLong v) any. Proof. unfold zj_GetLongLong. fr_typed. Qed.
Lemma fr_GetDouble v : framed (zj_GetDouble v) any.
Proof. unfold zj_GetDouble, zj_GetDouble_text, zj_strToDouble_text, with_type. fr. Qed.
Lemma fr_GetBool v : framed (zj_GetBool v) any. Proof. unfold zj_GetBool. fr_typed. Qed.
Lemma fr_IsNull v : framed (zj_IsNull v) any.
Proof. unfold zj_IsNull, with_type. fr. Qed.
Hint Resolve fr_GetStrFast fr_GetStr fr_GetUnEscapeStr fr_GetNumFast fr_GetNumStr fr_GetKey fr_GetUnEscapeKey fr_GetKeyFast
  fr_GetInt fr_GetLong fr_GetLongLong fr_GetDouble fr_GetBool fr_IsNull : frm.
Lemma fr_find test fuel : (forall n, framed (test n) any) -> forall w, framed (find_node fuel test w) any.
Proof. intro H. induction fuel as [|fuel IH]; intro w; cbn [find_node]; fr. Qed.
Lemma fr_to_handle A r : framed (to_handle A r) any. Proof. unfold to_handle. fr. Qed.
Hint Resolve fr_to_handle : frm.
Lemma fr_ObjGet fuel v k : framed (zj_ObjGet fuel v k) any.
Proof.
  unfold zj_ObjGet. apply fr_with_type; [exact Logic.I|]. intros x a n _ _. eapply fr_bind; [|intros; fr].
  apply fr_find. intro c. fr. apply fr_read; [|intro; fr]. intro t. destruct x1; eexists; reflexivity.
Qed.
Lemma fr_ObjGetLen fuel v k l : framed (zj_ObjGetLen fuel v k l) any.
Proof.
  unfold zj_ObjGetLen. apply fr_with_type; [exact Logic.I|]. intros x a n _ _. eapply fr_bind; [|intros; fr].
  apply fr_find. intro c. fr.
Qed.
Lemma fr_Type v : framed (zj_Type v) any. Proof. unfold zj_Type. fr. Qed.
Lemma fr_SizeOf v : framed (zj_SizeOf v) any. Proof. unfold zj_SizeOf. fr. Qed.
Lemma fr_nth index fuel : forall i w, framed (nth_node fuel i index w) any.
Proof. induction fuel as [|fuel IH]; intros i w; cbn [nth_node]; fr. Qed.
Hint Resolve fr_ObjGet fr_ObjGetLen fr_Type fr_SizeOf fr_nth : frm.
Lemma fr_ArrayGet fuel v i : framed (zj_ArrayGet fuel v i) any.
Proof. unfold zj_ArrayGet. fr_typed. Qed.
Lemma fr_Begin v : framed (zj_Begin v) any. Proof. unfold zj_Begin. fr. Qed.
Lemma fr_Next v : framed (zj_Next v) any. Proof. unfold zj_Next. fr. Qed.
Lemma fr_dup A w n : framed (dup_bytes A w n) any. Proof. unfold dup_bytes. fr. Qed.
Hint Resolve fr_ArrayGet fr_Begin fr_Next fr_dup : frm.
Lemma fr_copy_body A n d : framed (copy_body A n d) any.
Proof. unfold copy_body. fr. Qed.
Hint Resolve fr_copy_body : frm.
Lemma fr_copy_loop A root fuel : forall m n d, framed (copy_loop fuel A root m n d) any.
Proof. induction fuel as [|fuel IH]; intros m n d; cbn [copy_loop]; fr. Qed.
Hint Resolve fr_copy_loop : frm.
Lemma fr_CopyFrom fuel v vv : framed (zj_ValueCopyFrom fuel v vv) any.
Proof. unfold zj_ValueCopyFrom. fr. Qed.
Hint Resolve fr_CopyFrom : frm.
Lemma fr_Copy fuel v : framed (zj_Copy fuel v) any.
Proof. unfold zj_Copy. fr. Qed.
Lemma fr_move_node a : framed (move_node a) any.
Proof. unfold move_node. fr. Qed.
Hint Resolve fr_Copy fr_move_node : frm.
Lemma fr_Move v : framed (zj_Move v) any. Proof. unfold zj_Move. fr. Qed.
Lemma fr_ensure v : framed (ensure_node v) any. Proof. unfold ensure_node. fr. Qed.
Hint Resolve fr_Move fr_ensure : frm.
Lemma fr_SetNull v : framed (zj_SetNull v) any. Proof. unfold zj_SetNull. fr. Qed.
Lemma fr_SetBool v b : framed (zj_SetBool v b) any. Proof. unfold zj_SetBool. fr. Qed.
Lemma fr_check_len check A s n : framed (check_len check A s n) any.
Proof. unfold check_len. fr. Qed.
Hint Resolve fr_SetNull fr_SetBool fr_check_len : frm.
Definition starved (check : bytes -> res (option N)) : Prop := exists e, check [] = Err e.
Lemma fr_text_fast check ty v s : starved check -> framed (set_text_fast check ty v s) any.
Proof.
  intros [e He]. unfold set_text_fast. apply fr_read; [|intro; fr]. intro t. exists e. unfold bind, lift. now rewrite He.
Qed.
Lemma fr_text check ty v s : starved check -> framed (set_text check ty v s) any.
Proof.
  intros [e He]. unfold set_text. apply fr_read; [|intro; fr]. intro t. exists e. unfold bind, lift. now rewrite He.
Qed.
Lemma fr_text_len_fast check ty v s n : framed (set_text_len_fast check ty v s n) any.
Proof. unfold set_text_len_fast. fr. Qed.
Lemma fr_text_len check ty v s n : framed (set_text_len check ty v s n) any.
Proof. unfold set_text_len. fr. Qed.
Lemma starved_str : starved zj_checkStr. Proof. eexists. reflexivity. Qed.
Lemma starved_num : starved zj_checkNum. Proof. eexists. reflexivity. Qed.
Hint Resolve fr_text_fast fr_text fr_text_len_fast fr_text_len starved_str starved_num : frm.
Lemma fr_snprintf p size cap text : own p -> framed (snprintf p size cap text) any.
Proof. intro. unfold snprintf. fr. Qed.
Hint Resolve fr_snprintf : frm.
Lemma fr_printed v size cap text : framed (set_printed v size cap text) any.
Proof. unfold set_printed. fr. Qed.
Lemma fr_escape_out A src : framed (escape_out A src) own.
Proof. unfold escape_out. fr. Qed.
Hint Resolve fr_printed fr_escape_out : frm.
Lemma fr_escapeStr s A : framed (zj_escapeStr s A) own. Proof. unfold zj_escapeStr. fr. Qed.
Lemma fr_escapeStrLen s A n : framed (zj_escapeStrLen s A n) own. Proof. unfold zj_escapeStrLen. fr. Qed.
Hint Resolve fr_escapeStr fr_escapeStrLen : frm.
Lemma fr_SetStrFast v s : framed (zj_SetStrFast v s) any. Proof. apply fr_text_fast, starved_str. Qed.
Hint Resolve fr_SetStrFast : frm.
Lemma fr_SetStrEscape v s : framed (zj_SetStrEscape v s) any. Proof. unfold zj_SetStrEscape. fr. Qed.
Lemma fr_SetStrLenEscape v s n : framed (zj_SetStrLenEscape v s n) any. Proof. unfold zj_SetStrLenEscape. fr. Qed.
Lemma fr_key_node v : framed (key_node v) any. Proof. unfold key_node. fr. Qed.
Lemma fr_put_key n k l : framed (put_key n k l) any. Proof. unfold put_key. fr. Qed.
Hint Resolve fr_SetStrEscape fr_SetStrLenEscape fr_key_node fr_put_key : frm.
Lemma fr_SetKeyFast v s : framed (zj_SetKeyFast v s) any. Proof. unfold zj_SetKeyFast. fr. Qed.
Lemma fr_SetKey v s : framed (zj_SetKey v s) any. Proof. unfold zj_SetKey. fr. Qed.
Lemma fr_SetKeyLenFast v s n : framed (zj_SetKeyLenFast v s n) any. Proof. unfold zj_SetKeyLenFast, zj_checkStrLen. fr. Qed.
Lemma fr_SetKeyLen v s n : framed (zj_SetKeyLen v s n) any. Proof. unfold zj_SetKeyLen, zj_checkStrLen. fr. Qed.
Hint Resolve fr_SetKeyFast fr_SetKey fr_SetKeyLenFast fr_SetKeyLen : frm.
Lemma fr_SetKeyEscape v s : framed (zj_SetKeyEscape v s) any. Proof. unfold zj_SetKeyEscape. fr. Qed.
Lemma fr_SetKeyLenEscape v s n : framed (zj_SetKeyLenEscape v s n) any. Proof. unfold zj_SetKeyLenEscape. fr. Qed.
Lemma fr_container ty v : framed (set_container ty v) any. Proof. unfold set_container. fr. Qed.
Hint Resolve fr_SetKeyEscape fr_SetKeyLenEscape fr_container : frm.
Lemma fr_adopt f fuel : forall w, framed (adopt fuel f w) any.
Proof. induction fuel as [|fuel IH]; intro w; cbn [adopt]; fr. Qed.
Hint Resolve fr_adopt : frm.
Lemma fr_take fuel a b e : framed (take_value fuel a b e) any. Proof. unfold take_value. fr. Qed.
Hint Resolve fr_take : frm.
Lemma fr_SetFast fuel v vv : framed (zj_SetFast fuel v vv) any. Proof. unfold zj_SetFast. fr. Qed.
Lemma fr_Set fuel v vv : framed (zj_Set fuel v vv) any. Proof. unfold zj_Set. fr. Qed.
Lemma fr_append a c : framed (append_node a c) any. Proof. unfold append_node. fr. Qed.
Hint Resolve fr_SetFast fr_Set fr_append : frm.
Lemma fr_when_type v ty k : (forall a, framed (k a) any) -> framed (when_type v ty k) any.
Proof.
  intro H. unfold when_type. eapply fr_bind; [|intros; fr]. apply fr_with_type with (Q := any); [exact Logic.I|]. intros. fr.
Qed.
Lemma fr_when_key v k : framed k any -> framed (when_key v k) any.
Proof.
  intro H. unfold when_key. eapply fr_bind; [|intros; fr]. apply fr_with_key with (Q := any); [exact Logic.I|]. intros. fr.
Qed.
Lemma fr_ObjAddFast v vv : framed (zj_ObjAddFast v vv) any.
Proof. apply fr_when_type. intro a. apply fr_when_key. fr. Qed.
Lemma fr_ObjAdd fuel v vv : framed (zj_ObjAdd fuel v vv) any.
Proof. apply fr_when_type. intro a. apply fr_when_key. fr. Qed.
Lemma fr_ArrayAddFast v vv : framed (zj_ArrayAddFast v vv) any.
Proof. apply fr_when_type. intro a. fr. Qed.
Lemma fr_ArrayAdd fuel v vv : framed (zj_ArrayAdd fuel v vv) any.
Proof. apply fr_when_type. intro a. fr. Qed.
Lemma fr_ArrayDel fuel v i : framed (zj_ArrayDel fuel v i) any. Proof. unfold zj_ArrayDel. fr. Qed.
Lemma fr_ObjDel fuel v k : framed (zj_ObjDel fuel v k) any. Proof. unfold zj_ObjDel. fr. Qed.
Hint Resolve fr_ObjAddFast fr_ObjAdd fr_ArrayAddFast fr_ArrayAdd fr_ArrayDel fr_ObjDel : frm.

(** *** Programs *)
Lemma fr_lend {X} b (m : addr -> M X) : (forall p, own p -> framed (m p) any) -> framed (lend b m) any.
Proof. intro H. unfold lend. eapply fr_bind; [apply fr_user_buf|]. intros p Hp. eapply fr_bind; [now apply H|]. intros. fr. Qed.
Lemma fr_keep {X} b (m : addr -> M X) : (forall p, own p -> framed (m p) any) -> framed (keep b m) any.
Proof. intro H. unfold keep. eapply fr_bind; [apply fr_user_buf|]. intros p Hp. now apply H. Qed.
Lemma fr_pass {X} k b (m : addr -> M X) : (forall p, own p -> framed (m p) any) -> framed (pass k b m) any.
Proof. intro H. destruct k; [now apply fr_keep|now apply fr_lend]. Qed.
Lemma fr_out_text o : owno o -> framed (out_text o) any.
Proof.
  intro Ho. destruct o as [w|]; [|now apply fr_ret]. unfold out_text, cstr_at. destruct w as [| |a]; [apply fr_assoc, fr_fail..|].
  apply fr_assoc, fr_unit. fr.
Qed.
Lemma fr_out_view o : framed (out_view o) any.
Proof. unfold out_view. fr. Qed.
Hint Resolve fr_out_text fr_out_view : frm.
Lemma fr_hof E h : framed (hof E h) any. Proof. unfold hof. destruct (nth_error _ _); [now apply fr_ret|apply fr_fail]. Qed.
Lemma fr_aof E h : framed (aof E h) any. Proof. unfold aof. destruct (nth_error _ _); [now apply fr_ret|apply fr_fail]. Qed.
Hint Resolve fr_hof fr_aof : frm.
Lemma fr_with_env {X} E f (m : M X) : framed m any -> framed (with_env E f m) any.
Proof. intro H. eapply fr_bind; [exact H|]. intros. now apply fr_ret. Qed.
Lemma fr_text_call num k v p n : framed (set_text_call num k v p n) any.
Proof.
  destruct num, k; unfold set_text_call, zj_SetNumStr, zj_SetNumStrFast, zj_SetNumStrLen, zj_SetNumStrLenFast,
    zj_SetStr, zj_SetStrFast, zj_SetStrLen, zj_SetStrLenFast; fr.
Qed.
Lemma fr_key_call k v p n : framed (set_key_call k v p n) any.
Proof. destruct k; unfold set_key_call; fr. Qed.
Hint Resolve fr_text_call fr_key_call : frm.
Lemma fr_cstep fuel c E : B 0 = false -> framed (cstep fuel c E) any.
Proof.
  intro H0. destruct c; unfold cstep; try (eapply fr_bind; [solve [eauto with frm]|]; intros);
  try apply fr_with_env; try (now fr).
  all: try (match goal with |- framed (match ?k with _ => _ end) _ => destruct k end);
    try (apply fr_lend; intros; fr); try (apply fr_keep; intros; fr); try (apply fr_pass; intros; fr).
  - eapply fr_bind; [|intros; now apply fr_ret]. destruct len; apply fr_lend; intros; fr.
  - eapply fr_bind; [apply fr_hof|]. intros. apply fr_with_env. fr.
  - eapply fr_bind; [apply fr_hof|]. intros. apply fr_with_env. fr.
Qed.
Lemma fr_crun fuel : B 0 = false -> forall cs E, framed (crun fuel cs E) any.
Proof.
  intro H0. induction cs as [|c cs IH]; intro E; cbn [crun]; [now apply fr_ret|].
  eapply fr_bind; [now apply fr_cstep|]. intros xe _. eapply fr_bind; [apply IH|]. intros; now apply fr_ret.
Qed.
Lemma fr_release_all l : framed (release_all l) any.
Proof. induction l as [|A l IH]; cbn [release_all]; [now apply fr_ret|]. eapply fr_bind; [apply fr_Release|]. intros; exact IH. Qed.
Lemma fr_erun fuel : B 0 = false -> forall es Es, framed (erun fuel es Es) any.
Proof.
  intro H0. induction es as [|e es IH]; intro Es; cbn [erun]; [now apply fr_ret|]. eapply fr_bind with (Q := any).
  - destruct e as [g c|g]; cbn [estep].
    + eapply fr_bind; [now apply fr_cstep|]. intros; now apply fr_ret.
    + eapply fr_bind; [apply fr_release_all|]. intros; now apply fr_ret.
  - intros xe _. eapply fr_bind; [apply IH|]. intros; now apply fr_ret.
Qed.
End Frame.
