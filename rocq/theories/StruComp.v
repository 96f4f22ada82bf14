(* Correctness of the code generated for structured programs. *)
From Coq Require Import ZArith Lia List Bool ZifyBool ZifyNat.
From Verif Require Import Word Machine MachineProofs VarModel VarSpec FuncModel StruModel StruSpec StruProofs.
Import ListNotations.
Open Scope Z_scope.

Section Comp.
Variable w : world.
Variable L : lay.
Variable SF : bs.
Notation R := (L_F L).
Notation TT := (L_T L).
Notation DD := (L_D L).
Notation priv := (priv L SF).
Notation nxcell := (nxcell L SF).
Notation sim := (sim L SF).
Notation rest := (rest L SF).
Hypothesis HL : linked w L SF.
Hypothesis Hinit : NoDup (map fst (b_init SF)).

(* the condition looks at nothing that belongs to the control flow *)
Definition cgood (c : cond) : Prop := forall m1 m, agree priv m1 m ->
  cond_ok m1 c /\ cond_type (rd m1 (c_w3 c)) <> 0 /\ eval_cond m1 c = eval_cond m c.
(* code that does what it is meant to, and leaves the control flow alone *)
Definition code_good (n : nat) (code : (nat -> Z) -> nat -> list trig) (sem : mem -> mem -> Prop) : Prop :=
  (0 < n)%nat /\ (forall T k, length (code T k) = n) /\
  forall T k, placed w T k (code T k) -> forall m m', sem m m' -> forall m1, agree priv m1 m ->
  exists m1', runs w (lbl T k, m1) (lbl T (k + n), m1') /\ agree priv m1' m' /\ forall a, priv a -> get m1' a = get m1 a.

(* Db cells outside [lo, hi) keep their values *)
Definition keepD (lo hi : nat) (m m' : mem) : Prop :=
  forall d, (d < b_nd SF)%nat -> (d < lo \/ hi <= d)%nat -> get m' (DD d) = get m (DD d).
Definition acts (B : rel) (a : Z) (d : outcome -> Z) (lo hi : nat) : Prop :=
  forall m o m', B m o m' -> forall m1, sim m1 m ->
  exists m1', runs w (pa a, m1) (pa (d o), m1') /\ sim m1' m' /\ keepD lo hi m1 m1'.
Lemma keepD_trans lo hi a b c : keepD lo hi a b -> keepD lo hi b c -> keepD lo hi a c.
Proof. intros A B d H H'. rewrite B, A; auto. Qed.
Lemma keepD_refl lo hi a : keepD lo hi a a.
Proof. intros d _ _. reflexivity. Qed.
Lemma keepD_wide lo hi lo' hi' a b : keepD lo hi a b -> (lo' <= lo)%nat -> (hi <= hi')%nat -> keepD lo' hi' a b.
Proof. intros A H H' d Hd Ho. apply A; [exact Hd|lia]. Qed.
Lemma keepD_nx lo hi a b : agree nxcell b a -> keepD lo hi a b.
Proof. intros A d Hd _. apply (nx_db w L SF HL); auto. Qed.
Lemma acts_wide B a d lo hi lo' hi' : acts B a d lo hi -> (lo' <= lo)%nat -> (hi <= hi')%nat -> acts B a d lo' hi'.
Proof.
  intros A H H' m o m' HB m1 Hs. destruct (A m o m' HB m1 Hs) as (x & X & Y & Z). exists x. split; [exact X|]. split; [exact Y|].
  eapply keepD_wide; eauto.
Qed.
Lemma acts_seq A B a b d lo hi :
  acts A a (fun o => match o with Norm => b | _ => d o end) lo hi -> ((exists m m', A m Norm m') -> acts B b d lo hi) ->
  acts (seq_rel A B) a d lo hi.
Proof.
  intros HA HB m o m' [[No HA1]|(mm & HA1 & HB1)] m1 Hs.
  - destruct (HA m o m' HA1 m1 Hs) as (x & X & Y & Z). exists x. split; [|auto]. destruct o; [contradiction|exact X|exact X].
  - destruct (HA m Norm mm HA1 m1 Hs) as (x & X & Y & Z).
    destruct (HB (ex_intro _ m (ex_intro _ mm HA1)) mm o m' HB1 x Y) as (x' & X' & Y' & Z'). exists x'.
    split; [eapply steps_trans; eauto|]. split; [exact Y'|]. eapply keepD_trans; eauto.
Qed.
Lemma acts_skip a d lo hi : d Norm = a -> acts skip_rel a d lo hi.
Proof. intros H m o m' [-> ->] m1 Hs. exists m1. rewrite H. split; [apply steps_refl|]. split; [exact Hs|apply keepD_refl]. Qed.
Lemma acts_stop x a d lo hi : d x = a -> acts (stop_rel x) a d lo hi.
Proof. intros H m o m' [-> ->] m1 Hs. exists m1. rewrite H. split; [apply steps_refl|]. split; [exact Hs|apply keepD_refl]. Qed.

(* ---------- loops at run time ---------- *)
Lemma tail_acts S c a x lo hi :
  acts S c (fun o => match o with Norm => a | Brk => x | Cnt => c end) lo hi ->
  forall m b m', tail_rel S m b m' -> forall m1, sim m1 m ->
  exists m1', runs w (pa c, m1) (pa (if b then x else a), m1') /\ sim m1' m' /\ keepD lo hi m1 m1'.
Proof.
  intros HS m b m' H. induction H as [m m' H|m m' H|m m1 b m' H H2 IH]; intros n1 Hs.
  - apply (HS m Norm m' H n1 Hs).
  - apply (HS m Brk m' H n1 Hs).
  - destruct (HS m Cnt m1 H n1 Hs) as (y & X & Y & Z). destruct (IH y Y) as (y' & X' & Y' & Z').
    exists y'. split; [eapply steps_trans; eauto|]. split; [exact Y'|]. eapply keepD_trans; eauto.
Qed.
Lemma loop_acts B S a c x lo hi :
  acts B a (fun o => match o with Brk => x | _ => c end) lo hi ->
  acts S c (fun o => match o with Norm => a | Brk => x | Cnt => c end) lo hi ->
  forall m m', loop_rel B S m m' -> forall m1, sim m1 m ->
  exists m1', runs w (pa a, m1) (pa x, m1') /\ sim m1' m' /\ keepD lo hi m1 m1'.
Proof.
  intros HB HS m m' H. induction H as [m m' H|m o m1 m' H Ho Ht|m o m1 m2 m' H Ho Ht HI IH]; intros n1 Hs.
  - apply (HB m Brk m' H n1 Hs).
  - destruct (HB m o m1 H n1 Hs) as (y & X & Y & Z). destruct (tail_acts S c a x lo hi HS m1 true m' Ht y Y) as (y' & X' & Y' & Z').
    exists y'. split; [|split; [exact Y'|eapply keepD_trans; eauto]]. eapply steps_trans; [|exact X']. destruct o; [exact X|contradiction|exact X].
  - destruct (HB m o m1 H n1 Hs) as (y & X & Y & Z). destruct (tail_acts S c a x lo hi HS m1 false m2 Ht y Y) as (y' & X' & Y' & Z').
    destruct (IH y' Y') as (y2 & X2 & Y2 & Z2). exists y2. split; [|split; [exact Y2|]].
    + eapply steps_trans with (s2 := (pa c, y)); [destruct o; [exact X|contradiction|exact X]|]. eapply steps_trans; eauto.
    + eapply keepD_trans; [exact Z|]. eapply keepD_trans; eauto.
Qed.

(* ---------- statements ---------- *)
Definition dest (e : env) (x : Z) (o : outcome) : Z :=
  match o, e with Norm, _ => x | Brk, Some (b, _) => R b | Cnt, Some (_, c) => R c | _, None => 0 end.
Definition impl (B : rel) (e : env) (s s' : bs) : Prop :=
  ext s s' /\ (b_pend s <> [] -> (exists m m', B m Norm m') -> b_pend s' <> []) /\
  (ext s' SF -> forall x, (forall f, In f (b_pend s') -> R f = x) ->
   exists a, (forall f, In f (b_pend s) -> R f = a) /\ (b_pend s <> [] -> acts B a (dest e x) (b_nd s) (b_nd s'))).
Definition same_pend (s s' : bs) : Prop := ext s s' /\ b_pend s' = b_pend s.
Lemma impl_shift B e s s1 s2 : same_pend s s1 -> impl B e s1 s2 -> impl B e s s2.
Proof.
  intros [E H] (E2 & A & C). rewrite H in A, C. split; [eapply ext_trans; eauto|]. split; [exact A|].
  intros Hx x Hp. destruct (C Hx x Hp) as (a & Q1 & Q2). exists a. split; [exact Q1|]. intros Hn. eapply acts_wide; [apply Q2; exact Hn| |lia].
  destruct E as (_ & _ & _ & E). exact E.
Qed.
Lemma impl_seq A B e s s1 s2 : impl A e s s1 -> impl B e s1 s2 -> impl (seq_rel A B) e s s2.
Proof.
  intros (E1 & F1 & A1) (E2 & F2 & A2). split; [eapply ext_trans; eauto|]. split.
  - intros Hn (m & m' & [[Q _]|(mm & Q1 & Q2)]); [contradiction|]. apply F2; [apply F1; eauto|eauto].
  - intros Hx x Hp. destruct (A2 Hx x Hp) as (b & P2 & Q2). destruct (A1 (ext_trans _ _ _ E2 Hx) b P2) as (a & P1 & Q1).
    exists a. split; [exact P1|]. intros Hn.
    assert (N1 : (b_nd s <= b_nd s1)%nat) by apply E1. assert (N2 : (b_nd s1 <= b_nd s2)%nat) by apply E2.
    apply acts_seq with (b := b).
    + eapply acts_wide; [|apply Nat.le_refl|exact N2]. intros m o m' HA m1 Hs. destruct (Q1 Hn m o m' HA m1 Hs) as (y & X & Y & Z).
      exists y. split; [|auto]. destruct o; exact X.
    + intros HNorm. eapply acts_wide; [apply Q2; apply F1; auto|exact N1|apply Nat.le_refl].
Qed.

Lemma cgood_steady c m1 m : cgood c -> agree priv m1 m -> steady L SF m1 c.
Proof.
  intros H A m2 B. assert (A2 : agree priv m2 m) by (eapply agree_trans; [apply nx_priv; exact B|exact A]).
  destruct (H m2 m A2) as (X & Y & Z). destruct (H m1 m A) as (_ & _ & Z1). split; [exact X|]. split; [exact Y|]. congruence.
Qed.
Lemma konst_at cs : at_lay L (konst cs) = cs.
Proof. unfold at_lay, konst. rewrite map_map. apply map_id. Qed.
Lemma holds_sim neg cs m1 m : (forall c, In c cs -> cgood c) -> agree priv m1 m -> holds neg cs m1 = holds neg cs m.
Proof.
  intros H A. unfold holds. f_equal. induction cs as [|c r IH]; [reflexivity|]. cbn [forallb].
  rewrite IH by (intros; apply H; right; auto). destruct (H c (or_introl eq_refl) m1 m A) as (_ & _ & ->). reflexivity.
Qed.
(* the jump goes on when the conditions hold, else to l *)
Lemma jump_acts neg cs l s A B d :
  (forall c, In c cs -> cgood c) -> ext (jump_if neg (konst cs) l s) SF -> forall x lo hi,
  (forall f, In f (b_pend (jump_if neg (konst cs) l s)) -> R f = x) ->
  acts A x d lo hi -> acts B (lv L l) d lo hi ->
  exists a, (forall f, In f (b_pend s) -> R f = a) /\ acts (if_rel (holds neg cs) A B) a d lo hi.
Proof.
  intros Hc E x lo hi Hx HA HB. destruct (jump_run w L SF HL Hinit neg (konst cs) l s E x Hx) as (a & Ha & J). exists a. split; [exact Ha|].
  intros m o m' Hif m1 Hs. destruct (J m1 (proj2 Hs)) as (y & G1 & G2 & G3).
  { rewrite konst_at. intros c Hin. eapply cgood_steady; [apply Hc; exact Hin|apply Hs]. }
  rewrite konst_at, (holds_sim neg cs m1 m Hc (proj1 Hs)) in G1. unfold if_rel in Hif.
  assert (Hy : sim y m) by (eapply sim_nx; [exact Hs|exact G2|exact G3]).
  destruct (holds neg cs m).
  - destruct (HA m o m' Hif y Hy) as (z & X & Y & Z). exists z. split; [eapply steps_trans; eauto|]. split; [exact Y|].
    eapply keepD_trans; [apply keepD_nx; exact G2|exact Z].
  - destruct (HB m o m' Hif y Hy) as (z & X & Y & Z). exists z. split; [eapply steps_trans; eauto|]. split; [exact Y|].
    eapply keepD_trans; [apply keepD_nx; exact G2|exact Z].
Qed.

Lemma in_nonempty {A} (x : A) l : In x l -> l <> [].
Proof. intros H ->. destruct H. Qed.
Lemma impl_break neg cs e l s B o :
  (forall c, In c cs -> cgood c) ->
  (forall x, dest e x o = lv L l) -> o <> Norm -> B = if_rel (holds neg cs) (stop_rel o) skip_rel ->
  impl B e s (jump_if (negb neg) (konst cs) l s).
Proof.
  intros Hc Hd Ho ->. split; [apply ext_jump_if|]. split.
  - intros _ _. destruct (jump_pend (negb neg) (konst cs) l s) as [g Hg]. eapply in_nonempty; exact Hg.
  - intros E x Hx.
    destruct (jump_acts (negb neg) cs l s skip_rel (stop_rel o) (dest e x) Hc E x (b_nd s) (b_nd (jump_if (negb neg) (konst cs) l s)) Hx) as (a & Ha & J).
    + apply acts_skip. reflexivity.
    + apply acts_stop. apply Hd.
    + exists a. split; [exact Ha|]. intros _ m o' m' H. apply J. unfold if_rel, holds in *.
      destruct (xorb neg (forallb (eval_cond m) cs)) eqn:Q; rewrite xorb_negb_l || idtac.
      * replace (xorb (negb neg) (forallb (eval_cond m) cs)) with false; [exact H|]. destruct neg, (forallb (eval_cond m) cs); cbn in *; congruence.
      * replace (xorb (negb neg) (forallb (eval_cond m) cs)) with true; [exact H|]. destruct neg, (forallb (eval_cond m) cs); cbn in *; congruence.
Qed.

(* a leaf's code does what it is meant to *)
Definition lgood (c : leaf) : Prop := forall e s, impl (done (lf_sem c)) e s (lf_emit c s).
Lemma impl_code n code sem e s : code_good n code sem -> impl (done sem) e s (emit_code n code s).
Proof.
  intros (Hpos & Hlen & Hrun). split; [apply ext_leaf|]. split.
  - intros _ _. cbn. discriminate.
  - intros E x Hx. exists (TT (pos s)). split.
    + intros f Hf. apply (ext_set w L SF HL _ f (P (pos s)) E). cbn. apply in_or_app. left. apply in_map_iff. exists f. auto.
    + intros _ m o m' [-> Hsem] m1 [Ha Hr].
      set (f := b_nf s). set (k := pos s). set (T' := jump_to TT (k + n) (R f)).
      assert (Hf : R f = x) by (apply Hx; cbn; left; reflexivity).
      assert (Hpl : placed w T' k (code T' k)).
      { intros i t Hi. assert (Hlt : (i < n)%nat) by (rewrite <- (Hlen T' k); apply nth_error_Some; congruence).
        unfold lbl. replace (T' (k + i)%nat) with (TT (k + i)%nat).
        2:{ unfold T', jump_to. destruct (Nat.eqb_spec (k + i) (k + n)); [lia|reflexivity]. }
        change (pa (TT (k + i))) with (lbl TT (k + i)).
        rewrite (ext_placed w L SF HL (emit_code n code s) (k + i)
          (fun L => nth i (code (jump_to (L_T L) (k + n) (L_F L f)) k) (RawTrig [] [] 0)) E).
        - f_equal. fold T'. apply nth_error_nth. exact Hi.
        - cbn. rewrite nth_error_app2 by (unfold k, pos; lia). unfold k, pos. replace (length (b_trs s) + i - length (b_trs s))%nat with i by lia.
          rewrite nth_error_map. rewrite (nth_error_nth' _ 0%nat) by (rewrite seq_length; lia). rewrite seq_nth by lia. reflexivity. }
      destruct (Hrun T' k Hpl m m' Hsem m1 Ha) as (m1' & X & Y & Z). exists m1'. split; [|split; [split|]].
      * cbn [dest]. replace (pa (TT k)) with (lbl T' k); [replace (pa x) with (lbl T' (k + n)); [exact X|]|].
        -- unfold lbl, T', jump_to. rewrite Nat.eqb_refl, Hf. reflexivity.
        -- unfold lbl, T', jump_to. destruct (Nat.eqb_spec k (k + n)); [lia|reflexivity].
      * exact Y.
      * intros j l Hj. rewrite Z; [apply Hr; exact Hj|]. left. exists j, l. auto.
      * intros d Hd _. apply Z. right. exists d. auto.
Qed.

(* ---------- if chains ---------- *)
(* s: where the previous body ends; nei: where control comes when no condition
   has held so far *)
Definition implc (C : rel) (e : env) (nei : nat) (s s' : bs) : Prop :=
  ext s s' /\ b_pend s' <> [] /\
  (ext s' SF -> forall x, (forall f, In f (b_pend s') -> R f = x) ->
   (forall f, In f (b_pend s) -> R f = x) /\ acts C (R nei) (dest e x) (b_nd s) (b_nd s')).

Lemma implc_if neg cs nei C B e s1 s2 s3 :
  (forall c, In c cs -> cgood c) ->
  s2 = jump_if neg (konst cs) (F nei) s1 -> forall s2',
  impl B e s2 s2' -> implc C e nei s2' s3 -> impl (if_rel (holds neg cs) B C) e s1 s3.
Proof.
  intros Hc -> s2' (E2 & F2 & A2) (E3 & F3 & A3).
  assert (EJ : ext s1 (jump_if neg (konst cs) (F nei) s1)) by apply ext_jump_if.
  split; [eapply ext_trans; [exact EJ|]; eapply ext_trans; eauto|]. split; [intros; exact F3|].
  intros Hx x Hp. destruct (A3 Hx x Hp) as (P3 & C3). destruct (A2 (ext_trans _ _ _ E3 Hx) x P3) as (b & Pb & B2).
  assert (N1 : (b_nd s1 <= b_nd (jump_if neg (konst cs) (F nei) s1))%nat) by apply EJ.
  assert (N2 : (b_nd (jump_if neg (konst cs) (F nei) s1) <= b_nd s2')%nat) by apply E2. assert (N3 : (b_nd s2' <= b_nd s3)%nat) by apply E3.
  destruct (jump_acts neg cs (F nei) s1 B C (dest e x) Hc) with (x := b) (lo := b_nd s1) (hi := b_nd s3) as (a & Ha & HA).
  - eapply ext_trans; [exact E2|]. eapply ext_trans; eauto.
  - exact Pb.
  - eapply acts_wide; [apply B2|exact N1|exact N3].
    destruct (jump_pend neg (konst cs) (F nei) s1) as [g Hg]. eapply in_nonempty; exact Hg.
  - cbn [lv]. eapply acts_wide; [exact C3|lia|lia].
  - exists a. auto.
Qed.
Lemma implc_end e ifend nei s : implc skip_rel e nei s (end_if (Some nei) ifend s).
Proof.
  unfold end_if. unfold NextTrigger. cbn [fset b_nf].
  split; [|split].
  - eapply ext_trans; [apply (ext_next s)|]. eapply ext_trans; [apply (ext_fset nei (F (b_nf s)))|]. eapply ext_trans; [apply ext_next|]. apply ext_fset.
  - cbn. destruct (b_pend s); discriminate.
  - intros E x Hx. split.
    + intros f Hf. apply Hx. cbn. rewrite !in_app_iff. auto.
    + apply acts_skip. cbn [dest].
      rewrite (ext_set w L SF HL _ nei (F (b_nf s)) E) by (right; left; reflexivity). cbn [lv]. symmetry.
      apply Hx. cbn. rewrite !in_app_iff. cbn. auto.
Qed.
(* beginning of an else or elseif *)
Definition elsehead (ifend nei : nat) (s : bs) : bs :=
  let s := SetNextTrigger (F ifend) s in let (f, s) := NextTrigger s in fset nei (F f) s.
Lemma ext_elsehead ifend nei s : ext s (elsehead ifend nei s).
Proof. unfold elsehead. eapply ext_trans; [apply (ext_setnext (F ifend))|]. eapply ext_trans; [apply ext_next|apply ext_fset]. Qed.

Lemma implc_else B e ifend nei s s1 :
  impl B e (elsehead ifend nei s) s1 -> implc B e nei s (end_if None ifend s1).
Proof.
  intros (E1 & F1 & A1). set (s0 := elsehead ifend nei s) in *.
  assert (E0 : ext s s0) by apply ext_elsehead.
  assert (Ee : ext s1 (end_if None ifend s1)) by (unfold end_if; eapply ext_trans; [apply (ext_next s1)|apply ext_fset]).
  split; [eapply ext_trans; [exact E0|]; eapply ext_trans; eauto|]. split; [cbn; destruct (b_pend s1); discriminate|].
  intros Hx x Hp.
  assert (Hif : R ifend = x).
  { rewrite (ext_set w L SF HL _ ifend (F (b_nf s1)) Hx) by (left; reflexivity). cbn [lv]. apply Hp. cbn. rewrite in_app_iff. cbn. auto. }
  assert (X1 : ext s1 SF) by (eapply ext_trans; eauto). assert (X0 : ext s0 SF) by (eapply ext_trans; eauto).
  destruct (A1 X1 x) as (a & Pa & Aa).
  { intros f Hf. apply Hp. cbn. rewrite in_app_iff. auto. }
  split.
  - intros f Hf. rewrite <- Hif. apply (ext_set w L SF HL _ f (F ifend) X0). unfold s0, elsehead. cbn. right. apply in_or_app. left.
    apply in_map_iff. exists f. auto.
  - assert (Hn : R nei = a).
    { rewrite (ext_set w L SF HL _ nei (F (b_nf s)) X0) by (left; reflexivity). cbn [lv]. apply Pa. unfold s0, elsehead. cbn. auto. }
    rewrite Hn. apply Aa. unfold s0, elsehead. cbn. discriminate.
Qed.
(* an elseif: the code from elsehead on is an if chain of its own *)
Lemma implc_elif C e ifend nei s s2 :
  b_pend s2 <> [] ->
  (exists f, In f (b_pend s2) /\ In (ifend, F f) (b_sets s2)) ->
  impl C e (elsehead ifend nei s) s2 -> implc C e nei s s2.
Proof.
  intros Hne (f & Hf1 & Hf2) (E1 & F1 & A1). set (s0 := elsehead ifend nei s) in *.
  assert (E0 : ext s s0) by apply ext_elsehead.
  split; [eapply ext_trans; eauto|]. split; [exact Hne|].
  intros Hx x Hp. destruct (A1 Hx x Hp) as (a & Pa & Aa). assert (X0 : ext s0 SF) by (eapply ext_trans; eauto).
  split.
  - intros g Hg. rewrite (ext_set w L SF HL _ g (F ifend) X0); [|unfold s0, elsehead; cbn; right; apply in_or_app; left; apply in_map_iff; exists g; auto].
    cbn [lv]. rewrite (ext_set w L SF HL _ ifend (F f) Hx Hf2). cbn [lv]. apply Hp. exact Hf1.
  - assert (Hn : R nei = a).
    { rewrite (ext_set w L SF HL _ nei (F (b_nf s)) X0) by (left; reflexivity). cbn [lv]. apply Pa. unfold s0, elsehead. cbn. auto. }
    rewrite Hn. apply Aa. unfold s0, elsehead. cbn. discriminate.
Qed.

(* ---------- loops ---------- *)
Lemma sp_forward s : same_pend s (snd (Forward s)).
Proof. split; [apply ext_forward|reflexivity]. Qed.
Lemma sp_fset f l s : same_pend s (fset f l s).
Proof. split; [apply ext_fset|reflexivity]. Qed.
Definition loop_end (loopstart loopend : nat) (s : bs) : bs :=
  let s := SetNextTrigger (F loopstart) s in let (f, s) := NextTrigger s in fset loopend (F f) s.
Lemma ext_loop_end a b s : ext s (loop_end a b s).
Proof. unfold loop_end. eapply ext_trans; [apply (ext_setnext (F a))|]. eapply ext_trans; [apply ext_next|apply ext_fset]. Qed.
Definition tail_start (ls ct : nat) (step : bool) (s : bs) : bs :=
  if step then let (f, s) := NextTrigger s in fset ct (F f) s else fset ct (F ls) s.

Lemma impl_loop B S e s s1 s2 s3 ls le ct step :
  (* s1: after loopstart, loopend, contpoint were made *)
  ls = b_nf s -> ext s s1 -> b_pend s1 = b_pend s ++ [ls] ->
  impl B (Some (le, ct)) s1 s2 ->
  impl S (Some (le, ct)) (tail_start ls ct step s2) s3 ->
  (step = false -> S = skip_rel) -> (step = false -> s3 = tail_start ls ct step s2) ->
  impl (done (loop_rel B S)) e s (loop_end ls le s3).
Proof.
  intros Hls E1 HP (E2 & F2 & A2) (E3 & F3 & A3) HS0 HS1.
  set (st := tail_start ls ct step s2) in *.
  assert (Et : ext s2 st) by (unfold st, tail_start; destruct step; [eapply ext_trans; [apply (ext_next s2)|apply ext_fset]|apply ext_fset]).
  split; [eapply ext_trans; [exact E1|]; eapply ext_trans; [exact E2|]; eapply ext_trans; [exact Et|]; eapply ext_trans; [exact E3|apply ext_loop_end]|].
  split; [intros _ _; cbn; discriminate|].
  intros Hx x Hp. assert (X3 : ext s3 SF) by (eapply ext_trans; [apply ext_loop_end|exact Hx]).
  assert (Xt : ext st SF) by (eapply ext_trans; eauto). assert (X2 : ext s2 SF) by (eapply ext_trans; eauto).
  assert (Hle : R le = x).
  { rewrite (ext_set w L SF HL _ le (F (b_nf s3)) Hx) by (left; reflexivity). cbn [lv]. apply Hp. cbn. auto. }
  assert (P3 : forall f, In f (b_pend s3) -> R f = R ls).
  { intros f Hf. apply (ext_set w L SF HL _ f (F ls) Hx). cbn. right. apply in_or_app. left. apply in_map_iff. exists f. auto. }
  destruct (A3 X3 (R ls) P3) as (c & Pc & Ac).
  assert (HA : exists c', (forall f, In f (b_pend s2) -> R f = c') /\ R ct = c' /\
     acts S c' (fun o => match o with Norm => R ls | Brk => x | Cnt => c' end) (b_nd s2) (b_nd s3)).
  { destruct step.
    - exists c. assert (Hct : R ct = c).
      { rewrite (ext_set w L SF HL _ ct (F (b_nf s2)) Xt) by (left; reflexivity). cbn [lv]. apply Pc. cbn. rewrite in_app_iff. cbn. auto. }
      split; [intros f Hf; apply Pc; cbn; rewrite in_app_iff; auto|]. split; [exact Hct|].
      eapply acts_wide; [|apply Nat.le_refl|apply Nat.le_refl].
      intros m o m' H m1 Hs. destruct (Ac) with (m := m) (o := o) (m' := m') (m1 := m1) as (y & X & Y & Z); auto.
      { cbn. destruct (b_pend s2); discriminate. }
      exists y. split; [|auto]. destruct o; cbn [dest] in X; [exact X|rewrite Hle in X; exact X|rewrite Hct in X; exact X].
    - exists (R ls). split; [intros f Hf; apply P3; rewrite (HS1 eq_refl); exact Hf|].
      split; [apply (ext_set w L SF HL _ ct (F ls) Xt); left; reflexivity|].
      rewrite (HS0 eq_refl). apply acts_skip. reflexivity. }
  destruct HA as (c' & Pc' & Hct & Ac').
  destruct (A2 X2 c' Pc') as (a & Pa & Aa).
  assert (Hls' : R ls = a) by (apply Pa; rewrite HP; apply in_or_app; right; left; reflexivity).
  exists a. split; [intros f Hf; apply Pa; rewrite HP; apply in_or_app; auto|].
  assert (N1 : (b_nd s <= b_nd s1)%nat) by apply E1. assert (N2 : (b_nd s1 <= b_nd s2)%nat) by apply E2.
  assert (N3 : (b_nd s2 <= b_nd s3)%nat) by (transitivity (b_nd st); [apply Et|apply E3]).
  intros _ m o m' [-> HR] m1 Hs. cbn [dest].
  apply (loop_acts B S a c' x (b_nd s) (b_nd s3)) with (m := m); auto.
  - eapply acts_wide with (lo := b_nd s1) (hi := b_nd s2); [|lia|lia].
    intros n o' n' H n1 Hn. destruct Aa with (m := n) (o := o') (m' := n') (m1 := n1) as (y & X & Y & Z); auto.
    { rewrite HP. destruct (b_pend s); discriminate. }
    exists y. split; [|auto]. destruct o'; cbn [dest] in X; [exact X|rewrite Hle in X; exact X|rewrite Hct in X; exact X].
  - rewrite <- Hls'. eapply acts_wide with (lo := b_nd s2) (hi := b_nd s3); [exact Ac'|lia|lia].
Qed.

(* ---------- counted loops ---------- *)
Lemma sim_db m1 m d v : sim m1 m -> (d < b_nd SF)%nat -> sim (upd m1 (DD d) v) m.
Proof.
  intros [A B] Hd. split.
  - intros x Hx. rewrite get_upd_ne; [apply A; exact Hx|]. intros E. apply Hx. right. exists d. auto.
  - intros k l H. rewrite get_upd_ne; [apply B; exact H|]. intros E. exact (lk_sep_both _ _ _ HL k l d H Hd (eq_sym E)).
Qed.
Lemma keepD_db m1 d v hi : (d < b_nd SF)%nat -> (d < hi)%nat -> keepD d hi m1 (upd m1 (DD d) v).
Proof.
  intros Hd Hh d' Hd' Ho. apply get_upd_ne. intros E. pose proof (lk_sep_db _ _ _ HL d d' Hd Hd' E). lia.
Qed.
Lemma times_acts B S d a b c g x hi :
  (d < b_nd SF)%nat -> (Datatypes.S d <= hi)%nat ->
  (forall m1, rest m1 -> exists m1', goes w L SF a (if get m1 (DD d) =? 0 then x else b) m1 m1') ->
  acts B b (fun o => match o with Brk => x | _ => c end) (Datatypes.S d) hi ->
  acts S c (fun o => match o with Norm => g | Brk => x | Cnt => c end) (Datatypes.S d) hi ->
  (forall m1, runs w (pa g, m1) (pa a, upd m1 (DD d) (Z.max 0 (get m1 (DD d) - 1)))) ->
  forall n m m', times_rel B S n m m' -> forall m1, sim m1 m -> get m1 (DD d) = Z.of_nat n ->
  exists m1', runs w (pa a, m1) (pa x, m1') /\ sim m1' m' /\ keepD d hi m1 m1'.
Proof.
  intros Hd Hhi Ht HB HS Hg n m m' H.
  assert (Start : forall n m m1, sim m1 m -> get m1 (DD d) = Z.of_nat (Datatypes.S n) ->
     exists y, runs w (pa a, m1) (pa b, y) /\ sim y m /\ agree nxcell y m1 /\ get y (DD d) = Z.of_nat (Datatypes.S n)).
  { intros n0 m0 m1 Hs Hn. destruct (Ht m1 (proj2 Hs)) as (y & G1 & G2 & G3).
    destruct (Z.eqb_spec (get m1 (DD d)) 0); [lia|]. exists y. split; [exact G1|]. split; [eapply sim_nx; eauto|]. split; [exact G2|].
    rewrite (nx_db w L SF HL y m1 d G2 Hd). exact Hn. }
  assert (Kx : forall u v, keepD (Datatypes.S d) hi u v -> keepD d hi u v) by (intros; eapply keepD_wide; eauto).
  induction H as [m|n m m' H|n m o m1 m' H Ho HT|n m o m1 m2 m' H Ho HT HI IH]; intros n1 Hs Hn.
  - destruct (Ht n1 (proj2 Hs)) as (y & G1 & G2 & G3). rewrite Hn in G1. cbn in G1. exists y. split; [exact G1|].
    split; [eapply sim_nx; eauto|]. apply keepD_nx. exact G2.
  - destruct (Start n m n1 Hs Hn) as (y & X & Y & Z & _). destruct (HB m Brk m' H y Y) as (y' & X' & Y' & Z').
    exists y'. split; [eapply steps_trans; eauto|]. split; [exact Y'|]. eapply keepD_trans; [apply keepD_nx; exact Z|apply Kx; exact Z'].
  - destruct (Start n m n1 Hs Hn) as (y & X & Y & Z & _). destruct (HB m o m1 H y Y) as (y' & X' & Y' & Z').
    destruct (tail_acts S c g x (Datatypes.S d) hi HS m1 true m' HT y' Y') as (y2 & X2 & Y2 & Z2).
    exists y2. split; [|split; [exact Y2|]].
    + eapply steps_trans; [exact X|]. eapply steps_trans; [|exact X2]. destruct o; [exact X'|contradiction|exact X'].
    + eapply keepD_trans; [apply keepD_nx; exact Z|]. apply Kx. eapply keepD_trans; eauto.
  - destruct (Start n m n1 Hs Hn) as (y & X & Y & Z & Dy). destruct (HB m o m1 H y Y) as (y' & X' & Y' & Z').
    destruct (tail_acts S c g x (Datatypes.S d) hi HS m1 false m2 HT y' Y') as (y2 & X2 & Y2 & Z2).
    assert (D2 : get y2 (DD d) = Z.of_nat (Datatypes.S n)).
    { rewrite (Z2 d Hd) by lia. rewrite (Z' d Hd) by lia. exact Dy. }
    destruct (IH (upd y2 (DD d) (Z.max 0 (get y2 (DD d) - 1)))) as (y3 & X3 & Y3 & Z3).
    + apply sim_db; auto.
    + rewrite get_upd_eq, D2. replace (Z.max 0 (Z.of_nat (Datatypes.S n) - 1)) with (Z.of_nat n) by lia.
      apply u32_small. pose proof (get_range y2 (DD d)). lia.
    + exists y3. split; [|split; [exact Y3|]].
      * eapply steps_trans; [exact X|]. eapply steps_trans with (s2 := (pa c, y')); [destruct o; [exact X'|contradiction|exact X']|].
        eapply steps_trans; [exact X2|]. eapply steps_trans; [apply Hg|exact X3].
      * eapply keepD_trans; [apply keepD_nx; exact Z|]. eapply keepD_trans; [apply Kx; exact Z'|]. eapply keepD_trans; [apply Kx; exact Z2|].
        eapply keepD_trans; [apply keepD_db; [exact Hd|lia]|exact Z3].
Qed.
End Comp.
