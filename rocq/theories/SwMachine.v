(* The triggers of EUDSwitch in memory: runs of SwModel.v's nodes are runs of
   the machine. *)
From Coq Require Import ZArith Lia Bool List ZifyBool ZifyNat.
From Verif Require Import Word WordX Machine MachineProofs MachineRefine SwModel SwProofs SwTable.
Import ListNotations.
Open Scope Z_scope.

(* Where the linker put the parts of one switch: the triggers, the blocks of
   the cases, the jump table, and the fields of the action `restore`. *)
Record place := mkplace { pA : nat -> Z; pL : option Z -> Z; pJ : Z; pRP : Z; pRV : Z }.
(* EPD(trigger) + 1: SetNextPtr writes there (core/rawtrigger/rawtriggerdef.py,
   core/rawtrigger/stockact.py SetNextPtr) *)
Definition cell (pl : place) (n : nat) : Z := epd_of (pA pl n) + 1.
Fixpoint taddr (pl : place) (t : tgt) : Z :=
  match t with N n => pA pl n | J k => pJ pl + 20 * k | L c => pL pl c | X t d => taddr pl t + 20 * d end.

(* actions and triggers as built (swblock.py; stockact.py SetMemory) *)
Definition mact (pl : place) (a : lact) : list act :=
  match a with
  | ASet n t => [SetM (cell pl n) SetTo (taddr pl t)]
  | AAdd n d => [SetM (cell pl n) Add (20 * d)]
  | ARec n t => [SetM (pRP pl) SetTo (cell pl n); SetM (pRV pl) SetTo (taddr pl t)]
  | ARestore => [SetD (Mem (pRP pl)) SetTo (Mem (pRV pl))]
  end.
(* player: the EPD of the switched dword, or 13 = CurrentPlayer *)
Definition mcond (player : Z) (c : option (cmp * Z * Z)) : list cond :=
  match c with None => [] | Some (o, k, mk) => [CondMX player o k mk] end.
Definition mnode (pl : place) (player : Z) (n : nat) (nd : lnode) : trig :=
  mktrig (mcond player (n_cond nd)) (flat_map (mact pl) (n_acts nd)) (Mem (cell pl n)) (Imm 4).
(* entry of the jump table: a trigger with flag 8 (ctrlstru/jumptable.py 50-77) *)
Definition mjump (pl : place) (t : tgt) : trig := mktrig [] [] (Imm (taddr pl t)) (Imm 8).

(* numbers in the conditions are dwords *)
Definition small (x : Z) : Prop := 0 <= x < 2 ^ 32.
Definition node_small (nd : lnode) : Prop :=
  match n_cond nd with None => True | Some (_, k, mk) => small k /\ small mk end.
Definition in_acts (B : nat) (ur : bool) (a : lact) : Prop :=
  match a with ASet n _ => (n < B)%nat | AAdd n _ => (n < B)%nat | ARec n _ => ur = true /\ (n < B)%nat | ARestore => ur = true end.

Section Sim.
Variable P : prog.
Variable prot : Z -> bool.
Variable pl : place.
Variable player v : Z.
Variable B : nat.               (* triggers 0 .. B-1 *)
Variable ur : bool.             (* is there an action `restore`? *)
(* the cells that the switch writes *)
Definition owned (a : Z) : Prop :=
  (exists n, (n < B)%nat /\ idx a = idx (cell pl n)) \/ (ur = true /\ (idx a = idx (pRP pl) \/ idx a = idx (pRV pl))).
Hypothesis Hdist : forall n k, (n < B)%nat -> (k < B)%nat -> idx (cell pl n) = idx (cell pl k) -> n = k.
Hypothesis Hown : forall a, owned a -> prot (idx a) = false.
Hypothesis Hplain : forall n, (n < B)%nat -> plain (cell pl n).
Hypothesis Hrest : ur = true -> plain (pRP pl) /\ plain (pRV pl) /\ idx (pRP pl) <> idx (pRV pl) /\
  forall n, (n < B)%nat -> idx (pRP pl) <> idx (cell pl n) /\ idx (pRV pl) <> idx (cell pl n).
(* the condition reads v, as long as only owned cells are written *)
Variable Rd : mem -> Prop.
Hypothesis Hrd : forall m, Rd m -> forall c k mk, conds_are m [CondMX player c k mk] (do_cmp c (Z.land v (u32 mk)) (u32 k)).
Hypothesis Hst : forall m a x, Rd m -> owned a -> Rd (upd m a x).

Definition rel (m : mem) (s : lstate) : Prop :=
  (forall n, (n < B)%nat -> get m (cell pl n) = u32 (taddr pl (nx s n))) /\
  (ur = true -> get m (pRP pl) = u32 (cell pl (rn s)) /\ get m (pRV pl) = u32 (taddr pl (rt s)) /\ (rn s < B)%nat).
(* everything else stays *)
Definition frame (m m' : mem) : Prop := forall a, ~ owned a -> get m' a = get m a.
Lemma frame_refl m : frame m m. Proof using. intros a _. reflexivity. Qed.
Lemma frame_trans a b c : frame a b -> frame b c -> frame a c.
Proof using. intros H1 H2 x Hx. rewrite H2, H1 by exact Hx. reflexivity. Qed.
Lemma frame_upd m a x : owned a -> frame m (upd m a x).
Proof using.
  intros Ho b Hb. apply get_upd_ne. intros E. apply Hb. unfold owned in *. rewrite <- E. exact Ho.
Qed.
Lemma owned_cell n : (n < B)%nat -> owned (cell pl n).
Proof using. intros H. left. exists n. split; [exact H|reflexivity]. Qed.

Lemma rel_set m s n t x : (n < B)%nat -> rel m s -> u32 x = u32 (taddr pl t) -> rel (upd m (cell pl n) x) (set_nx s n t).
Proof using Hdist Hrest.
  intros Hn [R1 R2] Hx. split.
  - intros k Hk. cbn [nx set_nx]. destruct (Nat.eqb_spec k n) as [->|Hkn].
    + rewrite get_upd_eq. exact Hx.
    + rewrite get_upd_ne by (intros E; apply Hkn; symmetry; apply Hdist; assumption). apply R1, Hk.
  - intros Hu. destruct (R2 Hu) as (A & C & D). destruct (Hrest Hu) as (_ & _ & _ & E). destruct (E n Hn) as [E1 E2].
    cbn [rn rt set_nx]. rewrite !get_upd_ne by congruence. auto.
Qed.

Lemma mact_do a m s : in_acts B ur a -> rel m s -> Rd m ->
  exists m', acts_do prot m (mact pl a) m' /\ rel m' (do_lact s a) /\ Rd m' /\ frame m m'.
Proof using All.
  intros Ha HR HD. destruct a as [n t|n d|n t|]; cbn [mact in_acts do_lact] in *.
  - eexists. split; [|split; [|split]].
    + apply do_cons_M; [apply Hplain, Ha|apply Hown, owned_cell, Ha|apply do_nil].
    + apply rel_set; [exact Ha|exact HR|]. cbn [do_mod]. rewrite ?u32_idem. reflexivity.
    + apply Hst; [exact HD|apply owned_cell, Ha].
    + apply frame_upd, owned_cell, Ha.
  - eexists. split; [|split; [|split]].
    + apply do_cons_M; [apply Hplain, Ha|apply Hown, owned_cell, Ha|apply do_nil].
    + apply rel_set; [exact Ha|exact HR|]. cbn [do_mod]. rewrite (proj1 HR n Ha).
      assert (E : u32 (taddr pl (add_tgt (nx s n) d)) = u32 (taddr pl (nx s n) + 20 * d)).
      { destruct (nx s n); cbn [add_tgt taddr]; f_equal; lia. }
      rewrite E. rewrite ?u32_idem. rewrite u32_add_l, u32_add_r. reflexivity.
    + apply Hst; [exact HD|apply owned_cell, Ha].
    + apply frame_upd, owned_cell, Ha.
  - destruct Ha as [Hu Ha]. destruct (Hrest Hu) as (Q1 & Q2 & Q3 & Q4).
    assert (O1 : owned (pRP pl)) by (right; auto). assert (O2 : owned (pRV pl)) by (right; auto).
    eexists. split; [|split; [|split]].
    + apply do_cons_M; [exact Q1|apply Hown, O1|]. apply do_cons_M; [exact Q2|apply Hown, O2|apply do_nil].
    + destruct HR as [R1 R2]. split.
      * intros k Hk. cbn [nx]. destruct (Q4 k Hk) as [E1 E2]. rewrite !get_upd_ne by congruence. apply R1, Hk.
      * intros _. cbn [rn rt]. rewrite get_upd_eq. rewrite get_upd_ne by congruence. rewrite get_upd_eq.
        cbn [do_mod]. rewrite ?u32_idem. auto.
    + apply Hst; [apply Hst|]; assumption.
    + eapply frame_trans; apply frame_upd; assumption.
  - destruct (Hrest Ha) as (Q1 & Q2 & Q3 & Q4). destruct HR as [R1 R2]. destruct (R2 Ha) as (A & C & D).
    eexists. split; [|split; [|split]].
    + eapply do_cons_D with (a := cell pl (rn s)); [cbn [rd]; exact A|apply Hplain, D|apply Hown, owned_cell, D|apply do_nil].
    + apply rel_set; [exact D|split; assumption|]. cbn [do_mod rd]. rewrite C. rewrite ?u32_idem. reflexivity.
    + apply Hst; [exact HD|apply owned_cell, D].
    + apply frame_upd, owned_cell, D.
Qed.
Lemma mact_type a x m : In x (mact pl a) -> act_type (rd m (a_w6 x)) <> 0.
Proof using. destruct a; cbn; intros H; repeat destruct H as [<-|H]; try contradiction; vm_compute; discriminate. Qed.
Lemma macts_do l : forall m s, Forall (in_acts B ur) l -> rel m s -> Rd m ->
  exists m', acts_do prot m (flat_map (mact pl) l) m' /\ rel m' (do_lacts s l) /\ Rd m' /\ frame m m'.
Proof using All.
  induction l as [|a l IH]; intros m s Hl HR HD.
  - exists m. split; [apply do_nil|]. split; [exact HR|]. split; [exact HD|apply frame_refl].
  - inversion Hl as [|? ? Ha Hl']; subst. destruct (mact_do a m s Ha HR HD) as (m1 & A1 & R1 & D1 & F1).
    destruct (IH m1 (do_lact s a) Hl' R1 D1) as (m2 & A2 & R2 & D2 & F2).
    exists m2. split; [|split; [exact R2|split; [exact D2|eapply frame_trans; eassumption]]].
    cbn [flat_map]. eapply do_app; [|exact A1|exact A2]. intros x Hx m'. eapply mact_type, Hx.
Qed.

Variable LP : lprog.
Variable T : list tgt.
Hypothesis HLP : forall n nd, LP n = Some nd -> (n < B)%nat /\ node_small nd /\ Forall (in_acts B ur) (n_acts nd) /\
  P (u32 (pA pl n)) = Some (mnode pl player n nd).
Hypothesis HT : forall k t, nth_error T k = Some t -> P (u32 (pJ pl + 20 * Z.of_nat k)) = Some (mjump pl t).

Lemma sim_step x y m : lstep LP T v x y -> rel m (snd x) -> Rd m ->
  exists m', steps P prot (u32 (taddr pl (fst x)), m) (u32 (taddr pl (fst y)), m') /\ rel m' (snd y) /\ Rd m' /\ frame m m'.
Proof using All.
  intros H HR HD. destruct H as [n nd s s' HP Hs'|k t s Hk Ht].
  - cbn [fst snd taddr] in *. destruct (HLP n nd HP) as (Hn & Hsm & Hac & HPn).
    assert (HC : conds_are m (mcond player (n_cond nd)) (cond_holds v (n_cond nd))).
    { unfold node_small in Hsm. destruct (n_cond nd) as [[[o k] mk]|]; cbn [mcond cond_holds]; [|apply conds_nil].
      destruct Hsm as [H1 H2]. pose proof (Hrd m HD o k mk) as HC. rewrite (u32_small k), (u32_small mk) in HC by assumption. exact HC. }
    destruct (cond_holds v (n_cond nd)).
    + destruct (macts_do (n_acts nd) m s Hac HR HD) as (m' & A & R & D & F). subst s'.
      exists m'. split; [|split; [exact R|split; [exact D|exact F]]].
      eapply run_true; [exact HPn|reflexivity|exact HC|exact A|]. cbn [rd]. apply (proj1 R n Hn).
    + subst s'. exists m. split; [|split; [exact HR|split; [exact HD|apply frame_refl]]].
      eapply run_false; [exact HPn|reflexivity|exact HC|]. cbn [rd]. apply (proj1 HR n Hn).
  - cbn [fst snd taddr] in *. specialize (HT _ _ Ht). rewrite Z2Nat.id in HT by exact Hk.
    exists m. split; [|split; [exact HR|split; [exact HD|apply frame_refl]]].
    eapply steps_cons; [|apply steps_refl].
    change (u32 (taddr pl t), m) with (rd (exec_trig m (mjump pl t)) (t_next (mjump pl t)), exec_trig m (mjump pl t)).
    apply step_intro; [exact HT|]. intros Hb. discriminate Hb.
Qed.
Lemma sim_steps x y : lsteps LP T v x y -> forall m, rel m (snd x) -> Rd m ->
  exists m', steps P prot (u32 (taddr pl (fst x)), m) (u32 (taddr pl (fst y)), m') /\ rel m' (snd y) /\ Rd m' /\ frame m m'.
Proof using All.
  induction 1 as [x|x y z H1 H2 IH]; intros m HR HD.
  - exists m. split; [apply steps_refl|]. split; [exact HR|]. split; [exact HD|apply frame_refl].
  - destruct (sim_step x y m H1 HR HD) as (m1 & S1 & R1 & D1 & F1).
    destruct (IH m1 R1 D1) as (m2 & S2 & R2 & D2 & F2).
    exists m2. split; [eapply steps_trans; eassumption|]. split; [exact R2|]. split; [exact D2|eapply frame_trans; eassumption].
Qed.
End Sim.
