(** The contract of programs that keep the pointers they are given (KeepWorld.v). *)
From Verif Require Import Base Spec Mem Scene Hist HistRun HistSim HistStep HistAll HistMany HistWorld HistDocs HistCover HistCoverMany BetaClient Keep KeepWorld.

(** Pointer [k] is good: it was given, for a text that is in [t], with its length iff [view],
    and the group [j] it was got from was not released since. *)
Definition good_pointer (Z : gst) (k : nat) (P : nat -> bool -> bytes -> Prop) : Prop :=
  exists j r view t, nth_error (snd Z) k = Some (Some (j, r)) /\ rtext r = Some (view, t) /\ P j view t.
(** What has to be seen to before a statement. *)
Definition gcontract (c : gstmt) (Z : gst) : Prop :=
  match c with
  | GRelease _ => True
  | GIn g (PApi c) => wcontract (Do g c) (fst Z)
  | GIn g (PTake v h) => wcontract (Do g (pcall v h)) (fst Z)
  | GIn _ (PLook k) => exists j r, nth_error (snd Z) k = Some (Some (j, r))
  | GIn g (PGive u h k) => good_pointer Z k (fun j view t =>
      (j = g \/ tfast u = false) /\ exists c, tcall u view h t = Some c /\ wcontract (Do g c) (fst Z))
  end.
(** A program respects the contract: each statement does when it comes to it. *)
Fixpoint grespects {X} (jd : judge) (p : gprog X) (Z : gst) : Prop :=
  match p with
  | GRet _ => True
  | GStuck => False
  | GAct c k => gcontract c Z /\ forall a Z1, gsstep jd c Z = Some (a, Z1) -> grespects jd (k a) Z1
  end.

Section Cover.
Variable jd : judge.
Hypothesis J : correct jd.
Lemma gcovered c W T : reached jd W -> gcontract c (W, T) -> exists a W' T', gsstep jd c (W, T) = Some (a, (W', T')) /\ reached jd W'.
Proof.
  intros R C. assert (K : forall e, wcontract e W -> exists a W', wstep jd e W = Some (a, W') /\ reached jd W').
  { intros e H. destruct (wcovered jd J e W R H) as (a & W' & E). exists a, W'. split; auto. eapply reached_step; eauto. }
  destruct c as [g [c|v h|k|u h k]|g]; cbn [gcontract gsstep gcall fst snd] in *.
  - destruct (K _ C) as (a & W' & E & R'). unfold gcall. cbn [fst snd]. rewrite E. eauto.
  - destruct (K _ C) as (a & W' & E & R'). rewrite E. eauto.
  - destruct C as (j & r & E). exists (Text (option_map snd (rtext r))), W, T. split; [|exact R]. 
    match goal with |- context [nth_error ?a ?b] => change (nth_error a b) with (nth_error T k) end. now rewrite E.
  - destruct C as (j & r & view & t & E1 & E2 & Hf & c & Ec & C). cbn [fst snd] in E1.
    destruct (K _ C) as (a & W' & E & R'). exists a, W', T. split; [|exact R'].
    etransitivity; [exact (f_equal (fun o => match o with Some (Some (j, r)) => _ | _ => None end) E1)|]. cbv beta iota. rewrite E2.
    replace (Nat.eqb j g || negb (tfast u)) with true by (destruct Hf as [-> | ->]; [now rewrite Nat.eqb_refl|now rewrite Bool.orb_true_r]).
    rewrite Ec. unfold gcall. cbn [fst snd]. now rewrite E.
  - destruct (K (Release g) Logic.I) as (a & W' & E & R'). unfold gcall. cbn [fst snd]. rewrite E. eauto.
Qed.
Lemma grespects_runs X : forall (p : gprog X) W T, reached jd W -> grespects jd p (W, T) -> exists x W' T', grplay jd p (W, T) = Some (x, (W', T')).
Proof.
  induction p as [x| |c k IH]; intros W T R H; cbn [grespects grplay] in *; [eauto|contradiction|].
  destruct H as [C H]. destruct (gcovered c W T R C) as (a & W1 & T1 & E & R1). rewrite E. apply IH; auto.
Qed.
Theorem gcontract_ok X (p : gprog X) : grespects jd p (wstart, []) ->
  exists x W T, grplay jd p (wstart, []) = Some (x, (W, T)) /\ forall fuel, (gpmost jd p (wstart, []) <= fuel)%nat ->
  exists Es P s, gmplay fuel p (wenv0, []) init = Ok ((x, (Es, P)), s) /\ forall g, represents (wr W g) (Es g) s.
Proof.
  intro H. destruct (grespects_runs X p wstart [] (reached_start jd) H) as (x & W & T & E). exists x, W, T. split; auto.
  intros fuel Hf. eapply gclient; eauto.
Qed.
End Cover.
(** Programs that do not look at the answers. *)
Fixpoint gseq (cs : list gstmt) : gprog unit := match cs with [] => GRet tt | c :: r => GAct c (fun _ => gseq r) end.
Lemma gseq_respects jd cs : forall Z0, (forall k c Z, nth_error cs k = Some c -> grplay jd (gseq (firstn k cs)) Z0 = Some (tt, Z) -> gcontract c Z) ->
  grespects jd (gseq cs) Z0.
Proof.
  induction cs as [|c cs IH]; intros Z0 H; cbn [gseq grespects]; [exact Logic.I|]. split; [apply (H 0%nat c Z0); reflexivity|].
  intros a Z1 E. apply IH. intros k d Z Hk Hz. apply (H (Datatypes.S k) d Z Hk). cbn [firstn gseq grplay]. now rewrite E.
Qed.
