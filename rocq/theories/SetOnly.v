(** Every setter changes its target only. *)
From Verif Require Import Base Spec Lex Alloc Mem MemProofs Api Dom Effect ParseTop CacheProofs Vocab ReadFacts PrintFacts SetFacts.
Open Scope N_scope.

Section WithVol.
Context {VV : vols}.
(** Answer true: [v] holds [j] now, its key and place and everything else are as before.
    Answer false: nothing has changed. *)
Definition only_target (s : st) (F : dom) (v : addr) (w : word) (j : json) (r : bool) (s' : st) : Prop :=
  (r = true /\ exists F', assigned s F v w j s' F') \/ (r = false /\ untouched s F s').
Lemma sets_only s F v w ok j r s' : sets_iff s F v w ok j r s' -> only_target s F v w j r s'.
Proof. intros [(_ & E & K)|(_ & E & K)]; [left|right]; auto. Qed.

Variables (s : st) (F : dom) (v : addr) (w : word) (A : N).
Hypothesis I : inv s F.
Hypothesis H : handle s F v w A.
Lemma setStr_only : forall src b, given s src b -> room s A (lenN b + 72) ->
  exists r s', zj_SetStr v src s = Ok (r, s') /\ only_target s F v w (JStr b) r s'.
Proof. intros src b Hg Hr. destruct (setStr_exact s F v w A I H src b Hg Hr) as (r & s' & E & K). exists r, s'. split; [exact E|exact (sets_only _ _ _ _ _ _ _ _ K)]. Qed.
Lemma setStrFast_only : forall src b, kept s src b -> room s A 72 ->
  exists r s', zj_SetStrFast v src s = Ok (r, s') /\ only_target s F v w (JStr b) r s'.
Proof. intros src b Hg Hr. destruct (setStrFast_exact s F v w A I H src b Hg Hr) as (r & s' & E & K). exists r, s'. split; [exact E|exact (sets_only _ _ _ _ _ _ _ _ K)]. Qed.
Lemma setNumStr_only : forall src b, given s src b -> room s A (lenN b + 72) ->
  exists r s', zj_SetNumStr v src s = Ok (r, s') /\ only_target s F v w (JNum b) r s'.
Proof. intros src b Hg Hr. destruct (setNumStr_exact s F v w A I H src b Hg Hr) as (r & s' & E & K). exists r, s'. split; [exact E|exact (sets_only _ _ _ _ _ _ _ _ K)]. Qed.
Lemma setNumStrFast_only : forall src b, kept s src b -> room s A 72 ->
  exists r s', zj_SetNumStrFast v src s = Ok (r, s') /\ only_target s F v w (JNum b) r s'.
Proof. intros src b Hg Hr. destruct (setNumStrFast_exact s F v w A I H src b Hg Hr) as (r & s' & E & K). exists r, s'. split; [exact E|exact (sets_only _ _ _ _ _ _ _ _ K)]. Qed.
Lemma setStrLen_only : forall src b, srctext s src b -> cache_live s -> cache_room s A (check_cost (lenN b) + lenN b + 72) ->
  exists r s', zj_SetStrLen v src (lenN b) s = Ok (r, s') /\ only_target s F v w (JStr b) r s'.
Proof. intros src b Hg Hc Hr. destruct (setStrLen_exact s F v w A I H src b Hg Hc Hr) as (r & s' & E & K). exists r, s'. split; [exact E|exact (sets_only _ _ _ _ _ _ _ _ K)]. Qed.
Lemma setStrLenFast_only : forall src b, safetext s src b -> cache_live s -> cache_room s A (check_cost (lenN b) + 72) ->
  exists r s', zj_SetStrLenFast v src (lenN b) s = Ok (r, s') /\ only_target s F v w (JStr b) r s'.
Proof. intros src b Hg Hc Hr. destruct (setStrLenFast_exact s F v w A I H src b Hg Hc Hr) as (r & s' & E & K). exists r, s'. split; [exact E|exact (sets_only _ _ _ _ _ _ _ _ K)]. Qed.
Lemma setNumStrLen_only : forall src b, srctext s src b -> cache_live s -> cache_room s A (check_cost (lenN b) + lenN b + 72) ->
  exists r s', zj_SetNumStrLen v src (lenN b) s = Ok (r, s') /\ only_target s F v w (JNum b) r s'.
Proof. intros src b Hg Hc Hr. destruct (setNumStrLen_exact s F v w A I H src b Hg Hc Hr) as (r & s' & E & K). exists r, s'. split; [exact E|exact (sets_only _ _ _ _ _ _ _ _ K)]. Qed.
Lemma setNumStrLenFast_only : forall src b, safetext s src b -> cache_live s -> cache_room s A (check_cost (lenN b) + 72) ->
  exists r s', zj_SetNumStrLenFast v src (lenN b) s = Ok (r, s') /\ only_target s F v w (JNum b) r s'.
Proof. intros src b Hg Hc Hr. destruct (setNumStrLenFast_exact s F v w A I H src b Hg Hc Hr) as (r & s' & E & K). exists r, s'. split; [exact E|exact (sets_only _ _ _ _ _ _ _ _ K)]. Qed.
Lemma setInt_only : forall z, (int_min <= z <= int_max)%Z -> room s A 96 ->
  exists s' F' t, zj_SetInt v z s = Ok (true, s') /\ assigned s F v w (JNum t) s' F'.
Proof. intros z Hz Hr. destruct (setInt_back s F v w A I H z Hz Hr) as (s1 & F1 & t & E & K & _). eauto. Qed.
Lemma setLong_only : forall z, (long_min <= z <= long_max)%Z -> room s A 104 ->
  exists s' F' t, zj_SetLong v z s = Ok (true, s') /\ assigned s F v w (JNum t) s' F'.
Proof. intros z Hz Hr. destruct (setLong_back s F v w A I H z Hz Hr) as (s1 & F1 & t & E & K & _). eauto. Qed.
Lemma setLongLong_only : forall z, (long_min <= z <= long_max)%Z -> room s A 104 ->
  exists s' F' t, zj_SetLongLong v z s = Ok (true, s') /\ assigned s F v w (JNum t) s' F'.
Proof. intros z Hz Hr. destruct (setLongLong_back s F v w A I H z Hz Hr) as (s1 & F1 & t & E & K & _). eauto. Qed.
End WithVol.
