(* Every structured program: assembling the pieces of StruComp.v. *)
From Coq Require Import ZArith Lia List Bool Permutation ZifyBool ZifyNat.
From Verif Require Import Word Machine MachineProofs VarModel VarSpec FuncModel StruModel StruSpec StruProofs StruComp.
Import ListNotations.
Open Scope Z_scope.

Section Ind.
Variable P : stmt -> Prop.
Variable Q : chain -> Prop.
Definition OptP (o : option stmt) : Prop := match o with Some st => P st | None => True end.
Hypothesis HLeaf : forall c, P (SLeaf c).
Hypothesis HSkip : P SSkip.
Hypothesis HSeq : forall a b, P a -> P b -> P (SSeq a b).
Hypothesis HIf : forall neg pre cs body rest, P pre -> P body -> Q rest -> P (SIf neg pre cs body rest).
Hypothesis HWhile : forall neg pre cs body st, P pre -> P body -> OptP st -> P (SWhile neg pre cs body st).
Hypothesis HInf : forall body st, P body -> OptP st -> P (SInf body st).
Hypothesis HLoopN : forall n body st, P body -> OptP st -> P (SLoopN n body st).
Hypothesis HBreak : P SBreak.
Hypothesis HContinue : P SContinue.
Hypothesis HBreakIf : forall neg cs, P (SBreakIf neg cs).
Hypothesis HContinueIf : forall neg cs, P (SContinueIf neg cs).
Hypothesis HEnd : Q CEnd.
Hypothesis HElse : forall p, P p -> Q (CElse p).
Hypothesis HElif : forall neg pre cs body rest, P pre -> P body -> Q rest -> Q (CElif neg pre cs body rest).
Fixpoint stmt_ind2 (p : stmt) : P p :=
  let opt (o : option stmt) : OptP o := match o with Some st => stmt_ind2 st | None => I end in
  match p with
  | SLeaf c => HLeaf c
  | SSkip => HSkip
  | SSeq a b => HSeq a b (stmt_ind2 a) (stmt_ind2 b)
  | SIf neg pre cs body rest => HIf neg pre cs body rest (stmt_ind2 pre) (stmt_ind2 body) (chain_ind2 rest)
  | SWhile neg pre cs body st => HWhile neg pre cs body st (stmt_ind2 pre) (stmt_ind2 body) (match st as o return OptP o with Some st => stmt_ind2 st | None => I end)
  | SInf body st => HInf body st (stmt_ind2 body) (match st as o return OptP o with Some st => stmt_ind2 st | None => I end)
  | SLoopN n body st => HLoopN n body st (stmt_ind2 body) (match st as o return OptP o with Some st => stmt_ind2 st | None => I end)
  | SBreak => HBreak
  | SContinue => HContinue
  | SBreakIf neg cs => HBreakIf neg cs
  | SContinueIf neg cs => HContinueIf neg cs
  end
with chain_ind2 (c : chain) : Q c :=
  match c with
  | CEnd => HEnd
  | CElse p => HElse p (stmt_ind2 p)
  | CElif neg pre cs body rest => HElif neg pre cs body rest (stmt_ind2 pre) (stmt_ind2 body) (chain_ind2 rest)
  end.
End Ind.

Section Main.
Variable w : world.
Variable L : lay.
Variable SF : bs.
Notation R := (L_F L).
Notation TT := (L_T L).
Notation DD := (L_D L).
Notation sim := (sim L SF).
Hypothesis HL : linked w L SF.
Hypothesis Hinit : NoDup (map fst (b_init SF)).
Notation impl := (impl w L SF).
Notation implc := (implc w L SF).
Notation cgood := (cgood L SF).
Notation lgood := (lgood w L SF).

Lemma impl_skip e s : impl skip_rel e s s.
Proof.
  split; [apply ext_refl|]. split; [auto|]. intros _ x Hx. exists x. split; [exact Hx|]. intros _. apply acts_skip. reflexivity.
Qed.
Lemma impl_jump e l o s : o <> Norm -> (forall x, dest L e x o = lv L l) -> impl (stop_rel o) e s (jump_warn l s).
Proof.
  intros Ho Hd. unfold jump_warn, EUDJump. destruct (b_pend s) as [|f r] eqn:E.
  - split; [apply ext_refl|]. split; [intros H; contradiction (H E)|]. intros _ x Hx. exists x. split; [exact Hx|]. intros H; contradiction (H E).
  - split; [apply ext_setnext|]. split; [intros _ (m & m' & Q & _); congruence|]. intros X x _. exists (lv L l).
    split; [intros g Hg; eapply pend_set; eauto|]. intros _. apply acts_stop. apply Hd.
Qed.

Lemma impl_times B S e n s s3 s5 step :
  let d := b_nd s in
  let s0 := RawTrigger [] (fun L => [SetM (L_D L d) SetTo n]) (snd (Db4 s)) in
  let ls := b_nf s0 in
  let le := Datatypes.S ls in let ct := Datatypes.S le in
  let s1 := snd (Forward (snd (Forward (snd (NextTrigger s0))))) in
  let s2 := EUDJumpIf [fun L => CondM (L_D L d) Exactly 0] (F le) s1 in
  let s4 := let (f, s) := NextTrigger s3 in fset ct (F f) s in
  let s6 := RawTriggerTo [] (fun L => [SetM (L_D L d) Subtract 1]) (F ls) s5 in
  impl B (Some (le, ct)) s2 s3 -> impl S (Some (le, ct)) s4 s5 ->
  (step = false -> S = skip_rel) ->
  impl (done (times_rel B S (Z.to_nat (u32 n)))) e s (let (f, s) := NextTrigger s6 in fset le (F f) s).
Proof.
  intros d s0 ls le ct s1 s2 s4 s6 (E3 & F3 & A3) (E5 & F5 & A5) HS.
  set (s7 := let (f, s) := NextTrigger s6 in fset le (F f) s).
  assert (Ea : ext s (snd (Db4 s))) by apply ext_db. assert (Eb : ext (snd (Db4 s)) s0) by apply ext_raw.
  assert (Ec : ext s0 s1) by (eapply ext_trans; [apply ext_next|]; eapply ext_trans; apply ext_forward).
  assert (Ed : ext s1 s2) by (apply (ext_jump_if true)).
  assert (E4 : ext s3 s4) by (unfold s4; eapply ext_trans; [apply (ext_next s3)|apply ext_fset]).
  assert (E6 : ext s5 s6) by apply ext_rawto.
  assert (E7 : ext s6 s7) by (unfold s7; eapply ext_trans; [apply (ext_next s6)|apply ext_fset]).
  assert (E26 : ext s2 s6) by (eapply ext_trans; [exact E3|]; eapply ext_trans; [exact E4|]; exact (ext_trans _ _ _ E5 E6)).
  split; [eapply ext_trans; [exact Ea|]; eapply ext_trans; [exact Eb|]; eapply ext_trans; [exact Ec|]; eapply ext_trans; [exact Ed|]; exact (ext_trans _ _ _ E26 E7)|].
  split; [intros _ _; unfold s7; cbn; discriminate|].
  intros X7 x Hx.
  assert (X6 : ext s6 SF) by exact (ext_trans _ _ _ E7 X7). assert (X5 : ext s5 SF) by exact (ext_trans _ _ _ E6 X6).
  assert (X4 : ext s4 SF) by exact (ext_trans _ _ _ E5 X5). assert (X3 : ext s3 SF) by exact (ext_trans _ _ _ E4 X4).
  assert (X2 : ext s2 SF) by exact (ext_trans _ _ _ E3 X3). assert (X1 : ext s1 SF) by exact (ext_trans _ _ _ Ed X2).
  assert (X0 : ext s0 SF) by exact (ext_trans _ _ _ Ec X1).
  assert (N2 : (b_nd s2 = Datatypes.S d)%nat).
  { unfold s2, EUDJumpIf, EUDBranch, every, s1, s0. cbn. reflexivity. }
  assert (N3 : (b_nd s2 <= b_nd s3)%nat) by apply E3. assert (N4 : (b_nd s3 <= b_nd s5)%nat) by (transitivity (b_nd s4); [apply E4|apply E5]).
  assert (N7 : b_nd s7 = b_nd s5) by reflexivity.
  assert (NF : (b_nd s7 <= b_nd SF)%nat) by apply X7.
  assert (Hd : (d < b_nd SF)%nat) by lia.
  destruct (lk_db _ _ _ HL d Hd) as [Dp Dw].
  assert (Hle : R le = x).
  { rewrite (ext_set w L SF HL _ le (F (b_nf s6)) X7) by (left; reflexivity). cbn [lv]. apply Hx. unfold s7. cbn. auto. }
  (* decrement *)
  destruct (emit_at w L SF HL _ s5 X6) as [P6 G6].
  set (g := TT (pos s5)) in *.
  assert (Hg : forall m1, runs w (pa g, m1) (pa (R ls), upd m1 (DD d) (Z.max 0 (get m1 (DD d) - 1)))).
  { intros m1. eapply run_true with (1 := P6); [reflexivity|apply conds_nil| |].
    - apply do_cons_M; [exact Dp|exact Dw|]. cbn [do_mod]. change (u32 1) with 1. apply do_nil.
    - cbn [rd lv]. apply pa_u32. }
  destruct (A5 X5 g G6) as (c & Pc & Ac).
  assert (Hct : R ct = c).
  { rewrite (ext_set w L SF HL _ ct (F (b_nf s3)) X4) by (left; reflexivity). cbn [lv]. apply Pc. unfold s4. cbn. rewrite in_app_iff. cbn. auto. }
  destruct (A3 X3 c) as (b & Pb & Ab).
  { intros f Hf. apply Pc. unfold s4. cbn. rewrite in_app_iff. auto. }
  destruct (jump_run w L SF HL Hinit true [fun L => CondM (L_D L d) Exactly 0] (F le) s1 X2 b Pb) as (a & Pa & Ja).
  assert (Hls : R ls = a).
  { apply Pa. unfold s1, NextTrigger, Forward. cbn [snd b_pend]. apply in_or_app. right. left. reflexivity. }
  assert (Xe : ext (emit (fun L => RawTrig [] [SetM (L_D L d) SetTo n] (pa (L_F L (b_nf (snd (Db4 s)))))) (snd (Db4 s))) SF).
  { eapply ext_trans; [apply ext_next|exact X0]. }
  destruct (emit_at w L SF HL _ _ Xe) as [P0 G0].
  exists (TT (pos s)). split; [intros f Hf; apply G0; exact Hf|].
  intros _ m o m' [-> HT] m1 Hs. cbn [dest].
  set (m2 := upd m1 (DD d) (u32 n)).
  assert (R0 : runs w (pa (TT (pos s)), m1) (pa a, m2)).
  { eapply run_true with (1 := P0); [reflexivity|apply conds_nil| |].
    - apply do_cons_M; [exact Dp|exact Dw|]. cbn [do_mod]. apply do_nil.
    - cbn [rd lv]. rewrite pa_u32. f_equal. apply Pa. change (b_nf (snd (Db4 s))) with (b_nf s).
      unfold s1, NextTrigger, Forward. cbn [snd b_pend]. apply in_or_app. left. unfold s0, RawTrigger. cbn. left. reflexivity. }
  destruct (times_acts w L SF HL B S d a b c g x (b_nd s7)) with (n := Z.to_nat (u32 n)) (m := m) (m' := m') (m1 := m2) as (y & X & Y & Z).
  - exact Hd.
  - lia.
  - intros u Hu. destruct (Ja u Hu) as (v & Hv).
    + intros cc [<-|[]]. intros u2 Au. pose proof (nx_db w L SF HL u2 u d Au Hd) as Ed2.
      destruct (conds_one_M u2 (DD d) Exactly 0 Dp) as [C1 C2]. destruct (conds_one_M u (DD d) Exactly 0 Dp) as [_ C3].
      cbn [conds_ok eval_conds] in *. destruct (w3_facts Exactly) as (W1 & W2 & W3).
      change (rd u2 (c_w3 (CondM (DD d) Exactly 0))) with (u32 (enc_cmp Exactly * 2^16 + 15 * 2^24)) in *.
      change (rd u (c_w3 (CondM (DD d) Exactly 0))) with (u32 (enc_cmp Exactly * 2^16 + 15 * 2^24)) in *.
      rewrite W2 in *. change (15 =? 0) with false in *. cbn match in *. rewrite andb_true_r in *.
      split; [destruct C1 as [C1|[C1 _]]; [discriminate|exact C1]|]. split; [discriminate|]. rewrite C2, C3, Ed2. reflexivity.
    + exists v. unfold at_lay, holds in Hv. cbn [map forallb xorb] in Hv. rewrite andb_true_r in Hv.
      destruct (conds_one_M u (DD d) Exactly 0 Dp) as [_ C3]. cbn [eval_conds] in C3. destruct (w3_facts Exactly) as (W1 & W2 & W3).
      change (rd u (c_w3 (CondM (DD d) Exactly 0))) with (u32 (enc_cmp Exactly * 2^16 + 15 * 2^24)) in C3. rewrite W2 in C3.
      change (15 =? 0) with false in C3. cbn match in C3. rewrite andb_true_r in C3. rewrite C3 in Hv. cbn [do_cmp lv] in Hv. change (u32 0) with 0 in Hv.
      rewrite Hle in Hv. destruct (get u (DD d) =? 0); exact Hv.
  - eapply acts_wide with (lo := b_nd s2) (hi := b_nd s3); [|lia|lia].
    intros u o' u' H u1 Hu. destruct Ab with (m := u) (o := o') (m' := u') (m1 := u1) as (y & X & Y & Z); auto.
    { destruct (jump_pend true [fun L => CondM (L_D L d) Exactly 0] (F le) s1) as [q Hq]. eapply in_nonempty; exact Hq. }
    exists y. split; [|auto]. destruct o'; cbn [dest] in X; [exact X|rewrite Hle in X; exact X|rewrite Hct in X; exact X].
  - eapply acts_wide with (lo := b_nd s4) (hi := b_nd s5); [|cbn; lia|lia].
    intros u o' u' H u1 Hu. destruct Ac with (m := u) (o := o') (m' := u') (m1 := u1) as (y & X & Y & Z); auto.
    { unfold s4. cbn. destruct (b_pend s3); discriminate. }
    exists y. split; [|auto]. destruct o'; cbn [dest] in X; [exact X|rewrite Hle in X; exact X|rewrite Hct in X; exact X].
  - rewrite <- Hls. exact Hg.
  - exact HT.
  - eapply sim_db with (w := w); auto.
  - unfold m2. rewrite get_upd_eq, u32_idem. rewrite Z2Nat.id; [reflexivity|apply u32_range].
  - exists y. split; [eapply steps_trans; eauto|]. split; [exact Y|].
    eapply keepD_trans; [eapply keepD_db with (w := w) (hi := b_nd s7); [exact HL|exact Hd|lia]|exact Z].
Qed.

Lemma impl_ext B e s s' : impl B e s s' -> ext s s'.
Proof. intros H. apply H. Qed.
Lemma app_lgood (a b : list leaf * list cond) : (forall c, In c (fst a ++ fst b) -> lgood c) -> (forall c, In c (snd a ++ snd b) -> cgood c) ->
  ((forall c, In c (fst a) -> lgood c) /\ (forall c, In c (snd a) -> cgood c)) /\ ((forall c, In c (fst b) -> lgood c) /\ (forall c, In c (snd b) -> cgood c)).
Proof. intros H H'. split; split; intros c Hc; [apply H|apply H'|apply H|apply H']; apply in_or_app; auto. Qed.

Definition goodp (x : list leaf * list cond) : Prop := (forall c, In c (fst x) -> lgood c) /\ (forall c, In c (snd x) -> cgood c).
Definition Pst (p : stmt) : Prop := forall e s s', goodp (parts p) -> comp e p s = Some s' -> impl (den p) e s s'.
Definition Pch (c : chain) : Prop := forall e ifend nei s s', goodp (parts_chain c) -> comp_chain e ifend nei c s = Some s' ->
  implc (den_chain c) e nei s s' /\ exists f, In f (b_pend s') /\ In (ifend, F f) (b_sets s').

Lemma bindo_some {A B} (x : option A) (f : A -> option B) y : bindo x f = Some y -> exists a, x = Some a /\ f a = Some y.
Proof. destruct x; [|discriminate]. cbn. eauto. Qed.
Ltac binds H := repeat match type of H with bindo _ _ = Some _ => apply bindo_some in H; let s := fresh "s" in let E := fresh "E" in destruct H as (s & E & H) end.
Ltac two := split; [intros ? ?; match goal with H : forall c, In c _ -> lgood c |- _ => apply H end|intros ? ?; match goal with H : forall c, In c _ -> cgood c |- _ => apply H end];
  cbn [fst snd]; rewrite ?in_app_iff; auto.

Lemma impl_test neg cs le ct B s1 s3 :
  (forall c, In c cs -> cgood c) ->
  impl B (Some (le, ct)) (jump_if neg (konst cs) (F le) s1) s3 -> impl (if_rel (holds neg cs) B (stop_rel Brk)) (Some (le, ct)) s1 s3.
Proof.
  intros Hc (E2 & F2 & A2). assert (EJ : ext s1 (jump_if neg (konst cs) (F le) s1)) by apply ext_jump_if.
  assert (HJ : b_pend (jump_if neg (konst cs) (F le) s1) <> []) by (destruct (jump_pend neg (konst cs) (F le) s1) as [q Hq]; eapply in_nonempty; exact Hq).
  split; [eapply ext_trans; eauto|]. split.
  - intros _ (m & m' & H). unfold if_rel in H. destruct (holds neg cs m); [apply F2; eauto|]. destruct H; discriminate.
  - intros X x Hx. destruct (A2 X x Hx) as (b & Pb & Ab).
    assert (N1 : (b_nd s1 <= b_nd (jump_if neg (konst cs) (F le) s1))%nat) by apply EJ.
    destruct (jump_acts w L SF HL Hinit neg cs (F le) s1 B (stop_rel Brk) (dest L (Some (le, ct)) x) Hc) with (x := b) (lo := b_nd s1) (hi := b_nd s3) as (a & Pa & Aa).
    + eapply ext_trans; eauto.
    + exact Pb.
    + eapply acts_wide; [apply Ab; exact HJ|exact N1|apply Nat.le_refl].
    + apply acts_stop. reflexivity.
    + exists a. auto.
Qed.
Lemma if_body neg pre cs body rest e s0 s ifend nei s' :
  Pst pre -> Pst body -> Pch rest -> goodp (parts pre) -> goodp (parts body) -> goodp (parts_chain rest) -> (forall c, In c cs -> cgood c) ->
  same_pend s0 s ->
  (s <- comp e pre s ;; s <- comp e body (jump_if neg (konst cs) (F nei) s) ;; comp_chain e ifend nei rest s) = Some s' ->
  impl (seq_rel (den pre) (if_rel (holds neg cs) (den body) (den_chain rest))) e s0 s' /\ (exists f, In f (b_pend s') /\ In (ifend, F f) (b_sets s')).
Proof.
  intros Hpre Hbody Hrest G1 G2 G3 G4 Hsp H. binds H.
  destruct (Hrest e ifend nei s2 s' G3 H) as [IC HF]. split; [|exact HF].
  eapply impl_shift; [exact Hsp|]. eapply impl_seq; [apply Hpre; eauto|].
  eapply (implc_if w L SF HL Hinit); [exact G4|reflexivity|apply Hbody; [exact G2|exact E0]|exact IC].
Qed.

Theorem comp_ok : forall p, Pst p.
Proof.
  - apply (stmt_ind2 Pst Pch).
    + intros c e s s' [G _] H. injection H as <-. apply G. left. reflexivity.
    + intros e s s' _ H. injection H as <-. apply impl_skip.
    + intros a b Ha Hb e s s' G H. cbn [comp] in H. binds H. destruct G as [G G']. cbn [parts fst snd] in G, G'. destruct (app_lgood _ _ G G') as [Q1 Q2].
      eapply impl_seq; [apply Ha; eauto|apply Hb; eauto].
    + intros neg pre cs body rest Hpre Hbody Hrest e s s' [G G'] H. cbn [parts fst snd] in G, G'. cbn [comp Forward] in H.
      eapply (if_body neg pre cs body rest e s _ (b_nf s) (S (b_nf s)) s'); eauto; try solve [two].
      * intros c Hc. apply G'. rewrite !in_app_iff. auto.
      * split; [eapply ext_trans; [apply ext_forward|apply ext_forward]|reflexivity].
    + intros neg pre cs body st Hpre Hbody Hst e s s' [G G'] H. cbn [parts fst snd] in G, G'. cbn [comp Forward NextTrigger b_nf] in H.
      apply bindo_some in H. destruct H as (s1 & E1 & H). apply bindo_some in H. destruct H as (s2 & E2 & H). apply bindo_some in H. destruct H as (s3 & E3 & H).
      injection H as <-.
      set (ls := b_nf s) in *. set (le := S ls) in *. set (ct := S le) in *.
      change (impl (den (SWhile neg pre cs body st)) e s (loop_end ls le s3)).
      eapply (impl_loop w L SF HL) with (ct := ct) (s2 := s2) (step := match st with Some _ => true | None => false end);
        [reflexivity| | |eapply impl_seq; [apply Hpre; [two|exact E1]|]| | |].
      * eapply ext_trans; [apply ext_next|]. eapply ext_trans; apply ext_forward.
      * reflexivity.
      * apply impl_test; [intros c Hc; apply G'; rewrite !in_app_iff; auto|]. apply Hbody; [two|exact E2].
      * destruct st as [st|]; [apply Hst; [two|exact E3]|]. injection E3 as <-. apply impl_skip.
      * destruct st; [discriminate|reflexivity].
      * destruct st; [discriminate|]. intros _. injection E3 as <-. reflexivity.
    + intros body st Hbody Hst e s s' [G G'] H. cbn [parts fst snd] in G, G'. cbn [comp Forward NextTrigger b_nf] in H.
      apply bindo_some in H. destruct H as (s2 & E2 & H). apply bindo_some in H. destruct H as (s3 & E3 & H).
      injection H as <-.
      set (ls := b_nf s) in *. set (le := S ls) in *. set (ct := S le) in *.
      change (impl (den (SInf body st)) e s (loop_end ls le s3)).
      eapply (impl_loop w L SF HL) with (ct := ct) (s2 := s2) (step := match st with Some _ => true | None => false end);
        [reflexivity| | |apply Hbody; [two|exact E2]| | |].
      * eapply ext_trans; [apply ext_next|]. eapply ext_trans; apply ext_forward.
      * reflexivity.
      * destruct st as [st|]; [apply Hst; [two|exact E3]|]. injection E3 as <-. apply impl_skip.
      * destruct st; [discriminate|reflexivity].
      * destruct st; [discriminate|]. intros _. injection E3 as <-. reflexivity.
    + intros n body st Hbody Hst e s s' [G G'] H. cbn [parts fst snd] in G, G'. cbn [comp Db4 Forward] in H.
      unfold NextTrigger at 1 in H. cbn [b_nf] in H.
      apply bindo_some in H. destruct H as (s3 & E3 & H). apply bindo_some in H. destruct H as (s5 & E5 & H).
      injection H as <-.
      apply (impl_times (den body) (match st with Some st => den st | None => skip_rel end) e n s s3 s5 (match st with Some _ => true | None => false end)).
      * apply Hbody; [two|exact E3].
      * destruct st as [st|]; [apply Hst; [two|exact E5]|]. injection E5 as <-. apply impl_skip.
      * destruct st; [discriminate|reflexivity].
    + intros [[b c]|] s s' _ H; [|discriminate]. injection H as <-. apply impl_jump; [discriminate|reflexivity].
    + intros [[b c]|] s s' _ H; [|discriminate]. injection H as <-. apply impl_jump; [discriminate|reflexivity].
    + intros neg cs [[b c]|] s s' [_ G] H; [|discriminate]. injection H as <-.
      eapply (impl_break w L SF HL Hinit) with (o := Brk); [exact G|reflexivity|discriminate|reflexivity].
    + intros neg cs [[b c]|] s s' [_ G] H; [|discriminate]. injection H as <-.
      eapply (impl_break w L SF HL Hinit) with (o := Cnt); [exact G|reflexivity|discriminate|reflexivity].
    + intros e ifend nei s s' _ H. injection H as <-. split; [apply (implc_end w L SF HL)|].
      eexists. split; [|left; reflexivity]. cbn. rewrite !in_app_iff. cbn. auto.
    + intros p Hp e ifend nei s s' G H. cbn [comp_chain] in H. unfold NextTrigger at 1 in H. apply bindo_some in H. destruct H as (s1 & E1 & H). injection H as <-.
      split; [apply (implc_else w L SF HL); apply Hp; [exact G|exact E1]|].
      eexists. split; [|left; reflexivity]. cbn. rewrite !in_app_iff. cbn. auto.
    + intros neg pre cs body rest Hpre Hbody Hrest e ifend nei s s' [G G'] H. cbn [parts_chain fst snd] in G, G'.
      cbn [comp_chain] in H. unfold NextTrigger at 1 in H. cbn [Forward] in H.
      eapply (if_body neg pre cs body rest e (elsehead ifend nei s)) in H; eauto; try solve [two].
      * destruct H as [H HF]. split; [|exact HF]. eapply (implc_elif w L SF HL); eauto. destruct HF as (f & Hf & _). eapply in_nonempty; exact Hf.
      * intros c Hc. apply G'. rewrite !in_app_iff. auto.
      * split; [apply ext_forward|reflexivity].
Qed.
End Main.

(* ---------- code generation: success and bookkeeping ---------- *)
Lemma bindo_total {A B} (x : option A) (f : A -> option B) : (exists a, x = Some a) -> (forall a, exists b, f a = Some b) -> exists b, bindo x f = Some b.
Proof. intros [a ->] H. apply H. Qed.
Definition inl (e : env) : bool := match e with Some _ => true | None => false end.
Ltac bt := apply bindo_total; [|intro].
Theorem comp_total : forall p e s, in_loops (inl e) p = true -> exists s', comp e p s = Some s'.
Proof.
  apply (stmt_ind2 (fun p => forall e s, in_loops (inl e) p = true -> exists s', comp e p s = Some s')
                   (fun c => forall e i n s, in_loops_chain (inl e) c = true -> exists s', comp_chain e i n c s = Some s')); cbn [comp comp_chain in_loops in_loops_chain].
  - eauto.
  - eauto.
  - intros a b Ha Hb e s H. apply andb_true_iff in H. destruct H. bt; auto.
  - intros neg pre cs body rest H1 H2 H3 e s H. rewrite !andb_true_iff in H. destruct H as ((A & B) & C). cbn [Forward]. bt; [auto|]. bt; auto.
  - intros neg pre cs body st H1 H2 H3 e s H. rewrite !andb_true_iff in H. destruct H as ((A & B) & C). cbn [Forward NextTrigger].
    bt; [apply H1; exact A|]. bt; [apply H2; exact B|]. bt; [|eauto]. destruct st as [st|]; [apply H3; exact C|eauto].
  - intros body st H2 H3 e s H. rewrite !andb_true_iff in H. destruct H as (B & C). cbn [Forward NextTrigger].
    bt; [apply H2; exact B|]. bt; [|eauto]. destruct st as [st|]; [apply H3; exact C|eauto].
  - intros n body st H2 H3 e s H. rewrite !andb_true_iff in H. destruct H as (B & C). cbn [Forward NextTrigger Db4].
    bt; [apply H2; exact B|]. bt; [|eauto]. destruct st as [st|]; [apply H3; exact C|eauto].
  - intros [[? ?]|] s H; [eauto|discriminate].
  - intros [[? ?]|] s H; [eauto|discriminate].
  - intros neg cs [[? ?]|] s H; [eauto|discriminate].
  - intros neg cs [[? ?]|] s H; [eauto|discriminate].
  - eauto.
  - intros p H1 e i n s H. cbn [NextTrigger]. bt; eauto.
  - intros neg pre cs body rest H1 H2 H3 e i n s H. rewrite !andb_true_iff in H. destruct H as ((A & B) & C). cbn [Forward NextTrigger]. bt; [auto|]. bt; auto.
Qed.

(* rewritten next pointers are those of different triggers *)
Definition init_inv (s : bs) : Prop := NoDup (map fst (b_init s)) /\ forall k, In k (map fst (b_init s)) -> (k < pos s)%nat.
(* every Forward made so far is set, waits for the next trigger, or is held (h)
   to be set later, and only one of these *)
Definition fw_inv (h : list nat) (s : bs) : Prop :=
  Permutation (map fst (b_sets s) ++ b_pend s ++ h) (seq 0 (b_nf s)).
Definition inv (h : list nat) (s : bs) : Prop := init_inv s /\ fw_inv h s.
Lemma perm_fw h s h' s' n : fw_inv h s -> Permutation (map fst (b_sets s') ++ b_pend s' ++ h') (seq (b_nf s) n ++ map fst (b_sets s) ++ b_pend s ++ h) ->
  (b_nf s' = b_nf s + n)%nat -> fw_inv h' s'.
Proof.
  unfold fw_inv. intros A HP E. rewrite E, seq_app. eapply Permutation_trans; [exact HP|]. eapply Permutation_trans; [apply Permutation_app_comm|].
  apply Permutation_app_tail. exact A.
Qed.
Lemma inv_perm h h' s : Permutation h' h -> inv h s -> inv h' s.
Proof.
  intros HP [A B]. split; [exact A|]. apply (perm_fw h s h' s 0); auto.
  cbn. apply Permutation_app_head, Permutation_app_head, HP.
Qed.
Lemma inv_forward h s : inv h s -> inv (b_nf s :: h) (snd (Forward s)).
Proof.
  intros [A B]. split; [exact A|]. apply (perm_fw h s _ _ 1); [exact B| |cbn; lia].
  cbn [snd Forward b_sets b_pend seq app]. rewrite !app_assoc. apply Permutation_sym. apply (Permutation_middle (map fst (b_sets s) ++ b_pend s) h (b_nf s)).
Qed.
Lemma inv_next h s : inv h s -> inv h (snd (NextTrigger s)).
Proof.
  intros [A B]. split; [exact A|]. apply (perm_fw h s _ _ 1); [exact B| |cbn; lia].
  cbn [snd NextTrigger b_sets b_pend]. rewrite <- !app_assoc. cbn [app seq]. rewrite !app_assoc. apply Permutation_sym. apply (Permutation_middle (map fst (b_sets s) ++ b_pend s) h (b_nf s)).
Qed.
Lemma inv_fset h f l s : inv (f :: h) s -> inv h (fset f l s).
Proof.
  intros [A B]. split; [exact A|]. apply (perm_fw (f :: h) s _ _ 0); [exact B| |cbn; lia].
  cbn [fset b_sets b_pend map fst app seq]. rewrite !app_assoc. apply (Permutation_middle (map fst (b_sets s) ++ b_pend s) h f).
Qed.
Lemma inv_set h l s : inv h s -> inv h (SetNextTrigger l s).
Proof.
  intros [A B]. split; [exact A|]. apply (perm_fw h s _ _ 0); [exact B| |cbn; lia].
  cbn [SetNextTrigger b_sets b_pend app seq]. rewrite map_app, map_map. cbn [fst]. rewrite map_id, app_assoc. apply Permutation_app_tail, Permutation_app_comm.
Qed.
Lemma inv_grow h s its : inv h s -> inv h (mkbs (b_trs s ++ its) (b_pend s) (b_sets s) (b_nf s) (b_nd s) (b_init s)).
Proof.
  intros [[A1 A2] B]. split; [|exact B]. split; [exact A1|]. intros k Hk. unfold pos. cbn [b_trs]. rewrite app_length. specialize (A2 k Hk). unfold pos in A2. lia.
Qed.
Lemma inv_emit h it s : inv h s -> inv h (emit it s).
Proof. intros H. unfold emit. apply inv_grow. apply inv_set. exact H. Qed.
Lemma pos_emit it s : pos (emit it s) = S (pos s).
Proof. unfold emit, pos. cbn. rewrite app_length. cbn. lia. Qed.
Lemma inv_self h it l s : inv h s -> inv h (selfnext (pos s) l (emit it s)).
Proof.
  intros H. pose proof (inv_emit h it s H) as [[A1 A2] B]. destruct H as [[C1 C2] _]. split; [|exact B].
  split; cbn [selfnext b_init map fst].
  - constructor; [|exact A1]. intros Q. specialize (C2 (pos s) Q). lia.
  - intros k [<-|Hk]; [unfold pos at 2; cbn [selfnext b_trs]; fold (pos (emit it s)); rewrite pos_emit; lia|].
    exact (A2 k Hk).
Qed.
Lemma inv_rawto h cs a l s : inv h s -> inv h (RawTriggerTo cs a l s).
Proof. apply inv_emit. Qed.
Lemma inv_raw h cs a s : inv h s -> inv h (RawTrigger cs a s).
Proof. intros H. unfold RawTrigger. apply inv_next, inv_emit, H. Qed.
Lemma inv_db h s : inv h s -> inv h (snd (Db4 s)).
Proof. intros H. exact H. Qed.
Lemma inv_code h n c s : inv h s -> inv h (emit_code n c s).
Proof. intros H. unfold emit_code. apply inv_next. apply (inv_grow h (SetNextTrigger (P (pos s)) s)). apply inv_set. exact H. Qed.
Lemma inv_sub h cs a b x s : inv h s -> inv h (branch_sub cs a b x s).
Proof.
  intros H. unfold branch_sub. cbn [Forward]. apply inv_fset. apply inv_emit.
  apply (inv_self _ _ _ (snd (Forward s))). apply inv_forward. exact H.
Qed.
Lemma inv_chunks h ch a b x : forall s, inv h s -> inv h (branch_chunks ch a b x s).
Proof.
  induction ch as [|c r IH]; intros s H; [exact H|]. destruct r as [|c' r].
  - cbn [branch_chunks Forward]. apply inv_fset. apply inv_sub. apply (inv_forward _ _ H).
  - cbn [branch_chunks Forward] in *. cbn [NextTrigger]. apply IH. apply inv_fset. apply (inv_next _ (branch_sub _ _ _ _ _)). apply inv_sub. apply (inv_forward _ _ H).
Qed.
Lemma inv_branch h cs a b s : inv h s -> inv h (EUDBranch cs a b s).
Proof. intros H. destruct cs; [apply inv_set|apply inv_chunks]; exact H. Qed.
Lemma inv_jump_if h neg cs l s : inv h s -> inv h (jump_if neg cs l s).
Proof.
  intros H. destruct neg; cbn [jump_if]; unfold EUDJumpIf, EUDJumpIfNot; cbn [Forward NextTrigger]; apply inv_fset;
    apply (inv_next _ (EUDBranch _ _ _ _)); apply inv_branch; apply (inv_forward _ _ H).
Qed.
Lemma inv_warn h l s : inv h s -> inv h (jump_warn l s).
Proof. intros H. unfold jump_warn, EUDJump. destruct (b_pend s); [exact H|apply inv_set; exact H]. Qed.
Lemma inv_mark h f l s : inv (f :: h) s -> inv h (fset f l (snd (NextTrigger s))).
Proof. intros H. apply inv_fset, inv_next, H. Qed.
Lemma inv_swap h f g s : inv (f :: g :: h) s -> inv (g :: f :: h) s.
Proof. apply inv_perm. apply perm_swap. Qed.
Lemma bindo_inv {A B} (x : option A) (f : A -> option B) r : bindo x f = Some r -> exists a, x = Some a /\ f a = Some r.
Proof. destruct x; [eauto|discriminate]. Qed.
Ltac bi H := apply bindo_inv in H; let s := fresh "s" in let A := fresh "A" in destruct H as (s & A & H).

Definition leaf_inv (l : list leaf) : Prop := forall c, In c l -> forall h s, inv h s -> inv h (lf_emit c s).
Lemma leaf_inv_app a b : leaf_inv (a ++ b) -> leaf_inv a /\ leaf_inv b.
Proof. intros H. split; intros c Hc; apply H; apply in_or_app; auto. Qed.
Ltac lsplit := repeat match goal with H : leaf_inv (_ ++ _) |- _ => apply leaf_inv_app in H; destruct H end.
Theorem comp_inv : forall p, leaf_inv (fst (parts p)) -> forall e s s' h, comp e p s = Some s' -> inv h s -> inv h s'.
Proof.
  apply (stmt_ind2 (fun p => leaf_inv (fst (parts p)) -> forall e s s' h, comp e p s = Some s' -> inv h s -> inv h s')
                   (fun c => leaf_inv (fst (parts_chain c)) -> forall e i n s s' h, comp_chain e i n c s = Some s' -> inv (n :: i :: h) s -> inv h s')); cbn [parts parts_chain fst app].
  - intros c G e s s' h H I. injection H as <-. apply G; [left; reflexivity|exact I].
  - intros _ e s s' h H I. injection H as <-. exact I.
  - intros a b Ha Hb G e s s' h H I. lsplit. specialize (Ha ltac:(assumption)). specialize (Hb ltac:(assumption)). cbn [comp] in H. bi H. eauto.
  - intros neg pre cs body rest H1 H2 H3 G e s s' h H I. lsplit. specialize (H1 ltac:(assumption)). specialize (H2 ltac:(assumption)). specialize (H3 ltac:(assumption)). cbn [comp Forward] in H. bi H. cbv zeta in H. bi H.
    eapply H3; [exact H|]. eapply H2; [exact A0|]. apply inv_jump_if. eapply H1; [exact A|]. apply (inv_forward _ (snd (Forward s))), (inv_forward _ s), I.
  - intros neg pre cs body st H1 H2 H3 G e s s' h H I. lsplit. specialize (H1 ltac:(assumption)). specialize (H2 ltac:(assumption)). cbn [comp Forward NextTrigger] in H. bi H. cbv zeta in H. bi H. bi H.
    assert (I1 : inv (S (S (b_nf s)) :: S (b_nf s) :: h) s1).
    { eapply H2; [exact A0|]. apply inv_jump_if. eapply H1; [exact A|].
      apply (inv_forward _ (snd (Forward (snd (NextTrigger s))))), (inv_forward _ (snd (NextTrigger s))), inv_next, I. }
    injection H as <-. apply (inv_mark h _ _ (SetNextTrigger _ _)), inv_set.
    destruct st as [st|]; [cbn [OptP] in H3; specialize (H3 ltac:(assumption)); eapply H3; [exact A1|apply (inv_mark _ _ _ s1); exact I1]|injection A1 as <-; apply inv_fset; exact I1].
  - intros body st H2 H3 G e s s' h H I. lsplit. specialize (H2 ltac:(assumption)). cbn [comp Forward NextTrigger] in H. bi H. bi H.
    assert (I1 : inv (S (S (b_nf s)) :: S (b_nf s) :: h) s0).
    { eapply H2; [exact A|].
      apply (inv_forward _ (snd (Forward (snd (NextTrigger s))))), (inv_forward _ (snd (NextTrigger s))), inv_next, I. }
    injection H as <-. apply (inv_mark h _ _ (SetNextTrigger _ _)), inv_set.
    destruct st as [st|]; [cbn [OptP] in H3; specialize (H3 ltac:(assumption)); eapply H3; [exact A0|apply (inv_mark _ _ _ s0); exact I1]|injection A0 as <-; apply inv_fset; exact I1].
  - intros n body st H2 H3 G e s s' h H I. lsplit. specialize (H2 ltac:(assumption)). cbn [comp] in H.
    destruct (Db4 s) as [d sd] eqn:Ed. assert (Id : inv h sd) by (injection Ed as _ <-; exact I). cbv zeta in H.
    match type of H with context [RawTrigger ?a ?b sd] => pose proof (inv_raw h a b sd Id) as Ir; remember (RawTrigger a b sd) as sr eqn:Er end.
    clear Er Ed Id I. cbn [Forward NextTrigger] in H. bi H. bi H.
    assert (I1 : inv (S (S (b_nf sr)) :: S (b_nf sr) :: h) s0).
    { eapply H2; [exact A|]. match goal with |- inv _ (EUDJumpIf ?a ?b ?c) => change (inv (S (S (b_nf sr)) :: S (b_nf sr) :: h) (jump_if true a b c)) end. apply inv_jump_if.
      apply (inv_forward _ (snd (Forward (snd (NextTrigger sr))))), (inv_forward _ (snd (NextTrigger sr))), inv_next, Ir. }
    assert (X : forall a b : bs, Some a = Some b -> a = b) by congruence. apply X in H. rewrite <- H. apply (inv_mark h _ _ (RawTriggerTo _ _ _ _)), inv_rawto.
    destruct st as [st|]; [cbn [OptP] in H3; specialize (H3 ltac:(assumption)); eapply H3; [exact A0|apply (inv_mark _ _ _ s0); exact I1]|injection A0 as <-; apply (inv_mark _ _ _ s0); exact I1].
  - intros _ [[? ?]|] s s' h H I; [injection H as <-; apply inv_warn, I|discriminate].
  - intros _ [[? ?]|] s s' h H I; [injection H as <-; apply inv_warn, I|discriminate].
  - intros neg cs _ [[? ?]|] s s' h H I; [|discriminate]. cbn [comp] in H. injection H as <-. apply inv_jump_if, I.
  - intros neg cs _ [[? ?]|] s s' h H I; [|discriminate]. cbn [comp] in H. injection H as <-. apply inv_jump_if, I.
  - intros _ e i n s s' h H I. cbn [comp_chain] in H. injection H as <-. unfold end_if. cbn [NextTrigger].
    apply (inv_mark h _ _ (fset _ _ (snd (NextTrigger s)))), inv_mark, I.
  - intros p H1 G e i n s s' h H I. lsplit. specialize (H1 ltac:(assumption)). cbn [comp_chain NextTrigger] in H. bi H. injection H as <-. unfold end_if. cbn [NextTrigger].
    apply (inv_mark h _ _ s0). eapply H1; [exact A|]. apply (inv_mark _ _ _ (SetNextTrigger _ _)), inv_set, I.
  - intros neg pre cs body rest H1 H2 H3 G e i n s s' h H I. lsplit. specialize (H1 ltac:(assumption)). specialize (H2 ltac:(assumption)). specialize (H3 ltac:(assumption)). cbn [comp_chain NextTrigger] in H. cbv zeta in H. cbn [Forward fst snd] in H. bi H. cbv zeta in H. bi H.
    eapply H3; [exact H|]. eapply H2; [exact A0|]. apply inv_jump_if. eapply H1; [exact A|].
    apply (inv_forward _ (fset _ _ (snd (NextTrigger (SetNextTrigger _ _))))), (inv_mark _ _ _ (SetNextTrigger _ _)), inv_set, I.
Qed.

Theorem comp_none : forall p e s, in_loops (inl e) p = false -> comp e p s = None.
Proof.
  assert (N : forall A B (x : option A) (f : A -> option B), (forall a, x = Some a -> f a = None) -> bindo x f = None) by (intros A B [a|] f Q; cbn; auto).
  assert (N0 : forall A B (x : option A) (f : A -> option B), x = None -> bindo x f = None) by (intros A B x f ->; reflexivity).
  apply (stmt_ind2 (fun p => forall e s, in_loops (inl e) p = false -> comp e p s = None)
                   (fun c => forall e i n s, in_loops_chain (inl e) c = false -> comp_chain e i n c s = None)); cbn [comp comp_chain in_loops in_loops_chain].
  - discriminate.
  - discriminate.
  - intros a b Ha Hb e s H. apply andb_false_iff in H. destruct H; [apply N0|apply N]; auto.
  - intros neg pre cs body rest H1 H2 H3 e s H. rewrite !andb_false_iff in H. cbn [Forward]. destruct H as [[H|H]|H]; [apply N0; auto|apply N; intros; apply N0; auto|apply N; intros; apply N; intros; auto].
  - intros neg pre cs body st H1 H2 H3 e s H. rewrite !andb_false_iff in H. cbn [Forward NextTrigger].
    destruct H as [[H|H]|H]; [apply N0, H1; exact H|apply N; intros; apply N0, H2; exact H|].
    destruct st as [st|]; [|discriminate]. apply N; intros; apply N; intros; apply N0, H3. exact H.
  - intros body st H2 H3 e s H. rewrite !andb_false_iff in H. cbn [Forward NextTrigger].
    destruct H as [H|H]; [apply N0, H2; exact H|].
    destruct st as [st|]; [|discriminate]. apply N; intros; apply N0, H3. exact H.
  - intros n body st H2 H3 e s H. rewrite !andb_false_iff in H. cbn [Forward NextTrigger Db4].
    destruct H as [H|H]; [apply N0, H2; exact H|].
    destruct st as [st|]; [|discriminate]. apply N; intros; apply N0, H3. exact H.
  - intros [[? ?]|] s H; [discriminate|reflexivity].
  - intros [[? ?]|] s H; [discriminate|reflexivity].
  - intros neg cs [[? ?]|] s H; [discriminate|reflexivity].
  - intros neg cs [[? ?]|] s H; [discriminate|reflexivity].
  - discriminate.
  - intros p H1 e i n s H. cbn [NextTrigger]. apply N0. auto.
  - intros neg pre cs body rest H1 H2 H3 e i n s H. rewrite !andb_false_iff in H. cbn [Forward NextTrigger]. destruct H as [[H|H]|H]; [apply N0; auto|apply N; intros; apply N0; auto|apply N; intros; apply N; intros; auto].
Qed.

(* ---------- the meaning is a function when the leaves' is ---------- *)
Definition det (B : rel) : Prop := forall m o1 m1 o2 m2, B m o1 m1 -> B m o2 m2 -> o1 = o2 /\ m1 = m2.
Lemma det_seq A B : det A -> det B -> det (seq_rel A B).
Proof.
  intros HA HB m o1 m1 o2 m2 [[N H]|(x & H & K)] [[N' H']|(x' & H' & K')]; destruct (HA _ _ _ _ _ H H'); subst; try congruence; [auto|eapply HB; eauto].
Qed.
Lemma det_if b A B : det A -> det B -> det (if_rel b A B).
Proof. intros HA HB m o1 m1 o2 m2. unfold if_rel. destruct (b m); [apply HA|apply HB]. Qed.
Lemma det_skip : det skip_rel.
Proof. intros m o1 m1 o2 m2 [-> ->] [-> ->]. auto. Qed.
Lemma det_stop x : det (stop_rel x).
Proof. intros m o1 m1 o2 m2 [-> ->] [-> ->]. auto. Qed.
Lemma det_tail S : det S -> forall m b m', tail_rel S m b m' -> forall b2 m2, tail_rel S m b2 m2 -> b = b2 /\ m' = m2.
Proof.
  intros D m b m' H. induction H as [m m' H|m m' H|m m1 b m' H T IH]; intros b2 m2 K; inversion K as [? ? H'|? ? H'|? m1' ? ? H' T']; subst;
    destruct (D _ _ _ _ _ H H'); try discriminate; subst; auto.
Qed.
Ltac same2 D HT :=
  match goal with
  | H : ?B ?m ?o ?x, H' : ?B ?m ?o' ?x' |- _ => first [constr_eq H H'; fail 1 | destruct (D _ _ _ _ _ H H'); clear H'; subst]
  end.
Lemma det_loop B S : det B -> det S -> forall m m1, loop_rel B S m m1 -> forall m2, loop_rel B S m m2 -> m1 = m2.
Proof.
  intros DB DS m m1 H. induction H as [m m' H|m o a m' H N T|m o a c m' H N T L IH]; intros m2 K; inversion K as [? ? H'|? o' a' ? H' N' T'|? o' a' c' ? H' N' T' L']; subst;
    destruct (DB _ _ _ _ _ H H'); subst; try congruence; destruct (det_tail S DS _ _ _ T _ _ T'); subst; try discriminate; auto.
Qed.
Lemma det_times B S : det B -> det S -> forall n m m1, times_rel B S n m m1 -> forall m2, times_rel B S n m m2 -> m1 = m2.
Proof.
  intros DB DS n m m1 H. induction H as [m|n m m' H|n m o a m' H N T|n m o a c m' H N T L IH]; intros m2 K; inversion K as [?|? ? ? H'|? ? o' a' ? H' N' T'|? ? o' a' c' ? H' N' T' L']; subst; auto;
    destruct (DB _ _ _ _ _ H H'); subst; try congruence; destruct (det_tail S DS _ _ _ T _ _ T'); subst; try discriminate; auto.
Qed.
Lemma det_done (Q : mem -> mem -> Prop) : (forall m a b, Q m a -> Q m b -> a = b) -> det (done Q).
Proof. intros D m o1 m1 o2 m2 [-> H] [-> H']. split; auto. eapply D; eauto. Qed.
Definition leaf_det (l : list leaf) : Prop := forall c, In c l -> forall m a b, lf_sem c m a -> lf_sem c m b -> a = b.
Lemma leaf_det_app a b : leaf_det (a ++ b) -> leaf_det a /\ leaf_det b.
Proof. intros H. split; intros c Hc; apply H; apply in_or_app; auto. Qed.
Theorem den_det : forall p, leaf_det (fst (parts p)) -> det (den p).
Proof.
  assert (ST : forall st, OptP (fun p => leaf_det (fst (parts p)) -> det (den p)) st ->
    leaf_det (fst match st with Some s => parts s | None => ([], []) end) -> det (match st with Some s => den s | None => skip_rel end)).
  { intros [st|] H G; [apply H; exact G|apply det_skip]. }
  apply (stmt_ind2 (fun p => leaf_det (fst (parts p)) -> det (den p)) (fun c => leaf_det (fst (parts_chain c)) -> det (den_chain c))); cbn [parts parts_chain den den_chain fst].
  - intros c H. apply det_done. apply H. left. reflexivity.
  - intros _. apply det_skip.
  - intros a b Ha Hb H. apply leaf_det_app in H. destruct H. apply det_seq; auto.
  - intros neg pre cs body rest H1 H2 H3 H. apply leaf_det_app in H. destruct H as [A H]. cbn [app] in H. apply leaf_det_app in H. destruct H. apply det_seq; [auto|apply det_if; auto].
  - intros neg pre cs body st H1 H2 H3 H. apply leaf_det_app in H. destruct H as [A H]. cbn [app] in H. apply leaf_det_app in H. destruct H as [B C].
    apply det_done. intros m a b Ka Kb. revert Ka b Kb. apply det_loop; [apply det_seq; [auto|apply det_if; [auto|apply det_stop]]|]. apply ST; auto.
  - intros body st H2 H3 H. apply leaf_det_app in H. destruct H as [B C]. apply det_done. intros m a b Ka Kb. revert Ka b Kb. apply det_loop; [auto|apply ST; auto].
  - intros n body st H2 H3 H. apply leaf_det_app in H. destruct H as [B C]. apply det_done. intros m a b Ka Kb. revert Ka b Kb. apply det_times; [auto|apply ST; auto].
  - intros _. apply det_stop.
  - intros _. apply det_stop.
  - intros neg cs _. apply det_if; [apply det_stop|apply det_skip].
  - intros neg cs _. apply det_if; [apply det_stop|apply det_skip].
  - intros _. apply det_skip.
  - auto.
  - intros neg pre cs body rest H1 H2 H3 H. apply leaf_det_app in H. destruct H as [A H]. cbn [app] in H. apply leaf_det_app in H. destruct H. apply det_seq; [auto|apply det_if; auto].
Qed.
