(* C59 for the triggers of EUDSwitch. *)
From Coq Require Import ZArith Lia Bool List ZifyBool ZifyNat.
From Verif Require Import Word Machine MachineProofs MachineRefine PropPlace SwModel SwMachine.
Import ListNotations.
Open Scope Z_scope.

Definition no_restore (nd : lnode) : Prop := ~ In ARestore (n_acts nd).
Ltac nr := unfold no_restore; cbn [n_acts]; let H := fresh in intro H; repeat (destruct H as [H|H]; [discriminate H|]); try exact H.
Lemma nr_resets r : ~ In ARestore (resets r).
Proof. unfold resets. rewrite in_map_iff. intros (p & E & _). discriminate. Qed.
Lemma nr_one r n t : ~ In ARestore (ASet n t :: resets r).
Proof. intros [H|H]; [discriminate|]. revert H. apply nr_resets. Qed.

Lemma ks_nr fuel mask : forall keys reset base, Forall no_restore (key_selector fuel mask keys reset base).
Proof.
  induction fuel as [|fuel IH]; intros keys reset base; [constructor|]. cbn [key_selector].
  destruct keys as [|k [|k2 [|k3 r]]]; [constructor| | |].
  - constructor; [apply nr_one|]. constructor; [nr|]. destruct reset; [constructor|]. constructor; [apply nr_resets|constructor].
  - constructor; [apply nr_one|]. constructor; [nr|]. apply IH.
  - cbv zeta. constructor; [apply nr_one|]. apply Forall_app. split; apply IH.
Qed.
Lemma kscp_nr fuel V mask : forall keys reset base, Forall no_restore (key_selector_cp fuel V mask keys reset base).
Proof.
  induction fuel as [|fuel IH]; intros keys reset base; [constructor|]. cbn [key_selector_cp].
  destruct keys as [|k [|k2 [|k3 r]]]; [constructor| | |].
  - apply Forall_app. split; [destruct reset; [constructor|]; constructor; [apply nr_resets|constructor]|constructor; [nr|constructor]].
  - constructor; [apply nr_one|]. constructor; [nr|]. apply IH.
  - cbv zeta. constructor; [apply nr_one|]. apply Forall_app. split; apply IH.
Qed.
Lemma check_nr mask keys base : Forall no_restore (check_code mask keys base).
Proof. unfold check_code. destruct (_ =? _); repeat constructor; nr. Qed.
Lemma bits_nr j : forall bs i base after, Forall no_restore (bit_nodes j i bs base after).
Proof. induction bs as [|b bs IH]; intros; cbn [bit_nodes]; constructor; [nr|apply IH]. Qed.
Lemma table_nr mask keys : Forall no_restore (table_code mask keys).
Proof. unfold table_code. cbv zeta. apply Forall_app. split; [apply check_nr|]. constructor; [nr|apply bits_nr]. Qed.
Lemma tablecp_nr V mask keys base : Forall no_restore (table_code_cp V mask keys base).
Proof. unfold table_code_cp. cbv zeta. apply Forall_app. split; [apply check_nr|]. constructor; [nr|apply bits_nr]. Qed.

Lemma i_mact pl a : a <> ARestore -> Forall iact (mact pl a).
Proof. destruct a; intro H; cbn [mact]; try congruence; repeat constructor. Qed.
Lemma i_mcond player c : Forall icond (mcond player c).
Proof. destruct c as [[[o k] mk]|]; cbn [mcond]; repeat constructor. Qed.
Lemma nr_at pl player n nd : no_restore nd -> trig_at (epd_of (pA pl n)) (mnode pl player n nd).
Proof.
  intro H. unfold mnode, cell. apply trig_at_rec; [apply iconds_at, i_mcond| |reflexivity|exact I].
  apply iacts_at. unfold no_restore in H. revert H. induction (n_acts nd) as [|a l IH]; intro H; cbn [flat_map]; [constructor|].
  apply Forall_app. split; [apply i_mact; intros ->; apply H; left; reflexivity|apply IH; intro Q; apply H; right; exact Q].
Qed.

(* The fields of `restore` are those of the first action of trigger 0
   (swblock.py 168-178); every trigger's next pointer is its own. *)
Theorem C59_switch : forall pl player mask keys, pRP pl = epd_of (pA pl 0) + 82 + 4 -> pRV pl = epd_of (pA pl 0) + 82 + 5 ->
  forall n nd, nth_error (switch_code mask keys) n = Some nd -> trig_at (epd_of (pA pl n)) (mnode pl player n nd).
Proof.
  intros pl player mask keys HP HV n nd Hn. unfold switch_code in Hn.
  destruct keys as [|k r]; [destruct n; discriminate|]. set (ks := k :: r) in *. destruct (Nat.leb (length ks) 3).
  - unfold simple_code in Hn. destruct n as [|n].
    + injection Hn as <-. unfold mnode, cell. apply trig_at_rec; [exact I| |reflexivity|exact I].
      cbn [n_acts flat_map mact app acts_at]. rewrite HP, HV. repeat split.
    + cbn [nth_error] in Hn. apply nr_at. apply nth_error_In in Hn. apply in_map_iff in Hn. destruct Hn as (i & <- & _). nr.
  - apply nr_at. apply nth_error_In in Hn. destruct (dense ks);
      [pose proof (table_nr mask ks) as Q|pose proof (ks_nr (length ks) mask ks [] 0) as Q]; rewrite Forall_forall in Q; apply Q; exact Hn.
Qed.
Theorem C59_switch_cp : forall pl player mask keys n nd,
  nth_error (switch_code_cp mask keys) n = Some nd -> trig_at (epd_of (pA pl (S n))) (mnode pl player (S n) nd).
Proof.
  intros pl player mask keys n nd Hn. unfold switch_code_cp in Hn. destruct keys as [|k r]; [destruct n; discriminate|].
  set (ks := k :: r) in *. apply nr_at. apply nth_error_In in Hn. destruct (dense ks).
  - pose proof (tablecp_nr 0 mask ks 1) as Q. rewrite Forall_forall in Q. apply Q. exact Hn.
  - destruct Hn as [<-|Hn]; [nr|]. pose proof (kscp_nr (length ks) 0 mask ks [] 2) as Q. rewrite Forall_forall in Q. apply Q. exact Hn.
Qed.
Example C59_switch_example :
  let pl := mkplace (fun n => 0x58A364 + 4 * (1000 + 700 * Z.of_nat n)) (fun _ => 0x600000) 0x610000 1086 1087 in
  pRP pl = epd_of (pA pl 0) + 82 + 4 /\ pRV pl = epd_of (pA pl 0) + 82 + 5 /\ length (switch_code 0xFFFFFFFF [1; 5; 9]) = 4%nat.
Proof. repeat split. Qed.

Print Assumptions C59_switch.
Print Assumptions C59_switch_cp.
