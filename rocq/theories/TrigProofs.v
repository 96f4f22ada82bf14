(* An extended Trigger behaves as one trigger. *)
From Coq Require Import ZArith Lia List Bool ZifyBool ZifyNat.
From Verif Require Import Word Machine MachineProofs VarModel VarSpec FuncModel StruModel StruSpec StruProofs StruComp StruMain TrigModel.
Import ListNotations.
Open Scope Z_scope.

Section TG.
Variable w : world.
Variable L : lay.
Variable SF : bs.
Hypothesis HL : linked w L SF.
Hypothesis Hinit : NoDup (map fst (b_init SF)).
Notation R := (L_F L).
Notation TT := (L_T L).
Notation priv := (priv L SF).
Notation nxcell := (nxcell L SF).
Notation rest := (rest L SF).
Notation sim := (sim L SF).

(* an action of the program: it does not depend on, or change, the cells of the
   generated control flow *)
Definition agood (a : act) : Prop := forall m1 m, agree priv m1 m ->
  act_ok (W_prot w) m1 a /\ agree priv (exec_act m1 a) (exec_act m a) /\ forall p, priv p -> get (exec_act m1 a) p = get m1 p.
Definition acts_sem (l : list act) (m : mem) : mem := fold_left exec_act l m.

Lemma acts_good_run l : (forall a, In a l -> agood a) -> forall m1 m, agree priv m1 m ->
  acts_do (W_prot w) m1 l (acts_sem l m1) /\ agree priv (acts_sem l m1) (acts_sem l m) /\ forall p, priv p -> get (acts_sem l m1) p = get m1 p.
Proof.
  induction l as [|a l IH]; intros Hg m1 m A.
  - split; [apply do_nil|]. split; [exact A|reflexivity].
  - destruct (Hg a (or_introl eq_refl) m1 m A) as (O & B & C).
    destruct (IH (fun x Hx => Hg x (or_intror Hx)) _ _ B) as ([D1 D2] & E & G). cbn [acts_sem fold_left] in *.
    split; [|split; [exact E|]].
    + split.
      * right. split; [exact O|exact D1].
      * cbn [exec_acts]. destruct O as [O _]. rewrite O. cbn [Z.eqb]. exact D2.
    + intros p Hp. rewrite G, C; auto.
Qed.

(* next pointers hold their first values, except those of triggers in ks *)
Definition rest_but (ks : list nat) (m : mem) : Prop :=
  forall k l, In (k, l) (b_init SF) -> ~ In k ks -> get m (nx L k) = pa (lv L l).

Lemma ext_cond_trig cs ce s : ext s (cond_trig cs ce s).
Proof.
  unfold cond_trig. cbn [Forward]. cbv zeta. unfold NextTrigger. cbn [fst snd].
  eapply ext_trans; [apply (ext_forward s)|]. eapply ext_trans; [apply ext_emit|]. eapply ext_trans; [apply ext_selfnext|].
  eapply ext_trans; [apply ext_next|apply ext_fset].
Qed.
Lemma ext_cond_trigs ch ce : forall s, ext s (snd (cond_trigs ch ce s)).
Proof.
  induction ch as [|c r IH]; intros s; [apply ext_refl|]. cbn [cond_trigs].
  specialize (IH (cond_trig c ce s)). destruct (cond_trigs r ce (cond_trig c ce s)) as [ks s']. cbn [snd] in *.
  eapply ext_trans; [apply ext_cond_trig|exact IH].
Qed.
Lemma ext_act_trigs ch : forall s, ext s (act_trigs ch s).
Proof. induction ch as [|a r IH]; intros s; [apply ext_refl|]. eapply ext_trans; [apply ext_raw|apply IH]. Qed.
Lemma ext_revert_trigs ch ce : forall s, ext s (revert_trigs ch ce s).
Proof. induction ch as [|a r IH]; intros s; [apply ext_refl|]. eapply ext_trans; [apply ext_raw|apply IH]. Qed.

(* one group of conditions *)
Lemma cond_trig_run cs ce s :
  ext (cond_trig cs ce s) SF -> forall x, (forall g, In g (b_pend (cond_trig cs ce s)) -> R g = x) ->
  In (pos s, F ce) (b_init SF) /\
  (forall g, In g (b_pend s) -> R g = TT (pos s)) /\
  forall ks m, ~ In (pos s) ks -> rest_but ks m -> (forall c, In c cs -> steady L SF m c) ->
  exists m', runs w (pa (TT (pos s)), m) (pa (if forallb (eval_cond m) cs then x else R ce), m') /\
    agree nxcell m' m /\ rest_but (pos s :: ks) m'.
Proof.
  intros E x Hx. set (k := pos s) in *. unfold cond_trig in E, Hx. cbn [Forward] in E, Hx. cbv zeta in E, Hx. fold k in E, Hx.
  unfold NextTrigger in E, Hx.
  set (s1 := mkbs (b_trs s) (b_pend s) (b_sets s) (S (b_nf s)) (b_nd s) (b_init s)) in E, Hx.
  set (it1 := fun L => mktrig cs [SetM (nx L k) SetTo (pa (L_F L (b_nf s)))] (Mem (nx L k)) (Imm 4)) in E, Hx.
  set (s2 := selfnext k (F ce) (emit it1 s1)) in E, Hx.
  assert (E2 : ext s2 SF) by (eapply ext_trans; [apply (ext_next s2)|]; eapply ext_trans; [apply ext_fset|exact E]).
  assert (E1 : ext (emit it1 s1) SF) by (eapply ext_trans; [apply ext_selfnext|exact E2]).
  destruct (emit_at w L SF HL it1 s1 E1) as [P1 H1]. change (pos s1) with k in *.
  assert (Hn : R (b_nf s) = x).
  { rewrite (ext_set w L SF HL _ (b_nf s) (F (b_nf s2)) E) by (left; reflexivity). cbn [lv]. apply Hx. cbn. left. reflexivity. }
  assert (Hin : In (k, F ce) (b_init SF)).
  { destruct E2 as (_ & _ & X & _). apply X. left. reflexivity. }
  split; [exact Hin|]. split; [intros g Hg; apply H1; exact Hg|].
  intros ks m Hk Hr Hc. destruct (lk_cell _ _ _ HL k (F ce) Hin) as [Hpl Hpr].
  assert (HC : conds_are m cs (forallb (eval_cond m) cs)) by (apply steady_conds with (L := L) (SF := SF); [exact Hc|apply agree_refl]).
  destruct (forallb (eval_cond m) cs).
  - exists (upd m (nx L k) (pa (R (b_nf s)))). split; [|split].
    + eapply run_true with (1 := P1); [reflexivity|exact HC| |].
      * apply do_cons_M; [exact Hpl|exact Hpr|]. cbn [do_mod]. rewrite pa_u32. apply do_nil.
      * cbn [rd]. rewrite get_upd_eq, pa_u32, Hn. reflexivity.
    + eapply upd_agree; exact Hin.
    + intros k' l' Hk' Hn'. rewrite get_upd_ne; [apply Hr; [exact Hk'|intros Q; apply Hn'; right; exact Q]|].
      intros Q. apply Hn'. left. exact (lk_sep _ _ _ HL _ _ _ _ Hin Hk' Q).
  - exists m. split; [|split; [apply agree_refl|intros k' l' A B; apply Hr; [exact A|intros Q; apply B; right; exact Q]]].
    eapply run_false with (1 := P1); [reflexivity|exact HC|]. cbn [rd]. rewrite (Hr k (F ce) Hin Hk). reflexivity.
Qed.

Lemma cond_pos cs ce s : pos (cond_trig cs ce s) = S (pos s).
Proof. unfold cond_trig, pos. cbn. rewrite app_length. cbn. lia. Qed.
Lemma cond_trig_pend cs ce s : b_pend (cond_trig cs ce s) <> [].
Proof. cbn. discriminate. Qed.
Lemma cond_trigs_ks ch ce : forall s, fst (cond_trigs ch ce s) = seq (pos s) (length ch).
Proof.
  induction ch as [|c r IH]; intros s; [reflexivity|]. cbn [cond_trigs length seq]. specialize (IH (cond_trig c ce s)).
  destruct (cond_trigs r ce (cond_trig c ce s)) as [ks s']. cbn [fst] in *. rewrite IH, cond_pos. reflexivity.
Qed.

Lemma cond_trigs_run ch ce : forall s,
  ext (snd (cond_trigs ch ce s)) SF -> forall x, (forall g, In g (b_pend (snd (cond_trigs ch ce s))) -> R g = x) ->
  (forall k, In k (fst (cond_trigs ch ce s)) -> In (k, F ce) (b_init SF)) /\
  exists a, (forall g, In g (b_pend s) -> R g = a) /\
  (b_pend s <> [] ->
  forall ks m, (forall k, In k ks -> (k < pos s)%nat) -> rest_but ks m -> (forall c, In c (concat ch) -> steady L SF m c) ->
  exists m', runs w (pa a, m) (pa (if forallb (eval_cond m) (concat ch) then x else R ce), m') /\
    agree nxcell m' m /\ rest_but (ks ++ fst (cond_trigs ch ce s)) m').
Proof.
  induction ch as [|c r IH]; intros s E x Hx.
  - cbn [cond_trigs fst snd concat forallb] in *. split; [intros k []|]. exists x. split; [exact Hx|]. intros _ ks m _ Hr _. exists m.
    rewrite app_nil_r. split; [apply steps_refl|]. split; [apply agree_refl|exact Hr].
  - cbn [cond_trigs] in E, Hx |- *. specialize (IH (cond_trig c ce s)). pose proof (ext_cond_trigs r ce (cond_trig c ce s)) as EX.
    destruct (cond_trigs r ce (cond_trig c ce s)) as [ks' s'] eqn:Q. cbn [fst snd] in *.
    destruct (IH E x Hx) as (K2 & b & Pb & Gb).
    destruct (cond_trig_run c ce s (ext_trans _ _ _ EX E) b Pb) as (K1 & Pa & Ga).
    split; [intros k [<-|Hk]; auto|]. exists (TT (pos s)). split; [exact Pa|].
    intros Hne ks m Hks Hr Hc. cbn [concat] in *.
    destruct (Ga ks m) as (m1 & X1 & A1 & R1); [intros Hk; specialize (Hks _ Hk); lia|exact Hr|intros y Hy; apply Hc, in_or_app; auto|].
    rewrite forallb_app. destruct (forallb (eval_cond m) c); cbn [andb].
    + destruct (Gb (cond_trig_pend c ce s) (pos s :: ks) m1) as (m2 & X2 & A2 & R2).
      * intros k [<-|Hk]; rewrite cond_pos; [lia|specialize (Hks k Hk); lia].
      * exact R1.
      * intros y Hy. eapply steady_trans; [apply Hc, in_or_app; right; exact Hy|exact A1].
      * exists m2. split; [|split].
        -- eapply steps_trans; [exact X1|]. replace (forallb (eval_cond m) (concat r)) with (forallb (eval_cond m1) (concat r)); [exact X2|].
           assert (H : forall y, In y (concat r) -> eval_cond m1 y = eval_cond m y) by (intros y Hy; apply (Hc y); [apply in_or_app; auto|exact A1]).
           clear -H. revert H. generalize (concat r). induction l as [|y l IHl]; intros H; [reflexivity|]. cbn [forallb]. rewrite (H y (or_introl eq_refl)), IHl; auto. intros; apply H; right; auto.
        -- eapply agree_trans; eauto.
        -- intros k l Hk Hn. apply (R2 k l Hk). intros Z. apply Hn. apply in_app_or in Z. apply in_or_app. destruct Z as [[<-|Z]|Z]; [right; left; reflexivity|left; exact Z|right; right; exact Z].
    + exists m1. split; [exact X1|]. split; [exact A1|]. intros k l Hk Hn. apply (R1 k l Hk). intros Z. apply Hn. apply in_or_app. destruct Z as [<-|Z]; [right; left; reflexivity|left; exact Z].
Qed.

(* the triggers with the actions *)
Lemma raw_run cs acts s :
  ext (RawTrigger cs acts s) SF -> forall x, (forall g, In g (b_pend (RawTrigger cs acts s)) -> R g = x) ->
  (forall g, In g (b_pend s) -> R g = TT (pos s)) /\ W_P w (lbl TT (pos s)) = Some (RawTrig cs (acts L) (pa x)).
Proof.
  intros E x Hx. unfold RawTrigger in E, Hx.
  assert (E1 : ext (emit (fun L => RawTrig cs (acts L) (pa (L_F L (b_nf s)))) s) SF) by (eapply ext_trans; [apply ext_next|exact E]).
  destruct (emit_at w L SF HL _ s E1) as [P1 H1]. split; [exact H1|]. rewrite P1. rewrite (Hx (b_nf s)); [reflexivity|]. cbn. left. reflexivity.
Qed.
Lemma act_trigs_run ch : forall s,
  ext (act_trigs (map (map (fun a (_ : lay) => a)) ch) s) SF -> forall x, (forall g, In g (b_pend (act_trigs (map (map (fun a (_ : lay) => a)) ch) s)) -> R g = x) ->
  exists a, (forall g, In g (b_pend s) -> R g = a) /\
  forall m1 m, agree priv m1 m -> (forall y, In y (concat ch) -> agood y) ->
  exists m1', runs w (pa a, m1) (pa x, m1') /\ agree priv m1' (acts_sem (concat ch) m) /\ forall p, priv p -> get m1' p = get m1 p.
Proof.
  induction ch as [|c r IH]; intros s E x Hx; cbn [map act_trigs concat] in *.
  - exists x. split; [exact Hx|]. intros m1 m A _. exists m1. split; [apply steps_refl|]. split; [exact A|reflexivity].
  - set (s1 := RawTrigger [] _ s) in *. destruct (IH s1 E x Hx) as (b & Pb & Gb).
    pose proof (ext_act_trigs (map (map (fun a (_ : lay) => a)) r) s1) as EX.
    destruct (raw_run [] (fun L => map (fun x => x L) (map (fun a (_ : lay) => a) c)) s (ext_trans _ _ _ EX E) b Pb) as [Pa W].
    exists (TT (pos s)). split; [exact Pa|]. intros m1 m A G.
    assert (Q : map (fun x : lay -> act => x L) (map (fun a (_ : lay) => a) c) = c) by (rewrite map_map; apply map_id). rewrite Q in W.
    destruct (acts_good_run c (fun y Hy => G y (in_or_app _ _ _ (or_introl Hy))) m1 m A) as (D & A1 & C1).
    destruct (Gb _ _ A1 (fun y Hy => G y (in_or_app _ _ _ (or_intror Hy)))) as (m2 & X2 & A2 & C2).
    exists m2. split; [|split].
    + eapply steps_trans; [|exact X2]. eapply run_true with (1 := W); [reflexivity|apply conds_nil|exact D|]. cbn [rd]. apply pa_u32.
    + unfold acts_sem in *. rewrite fold_left_app. exact A2.
    + intros p Hp. rewrite C2, C1; auto.
Qed.

(* putting the next pointers back *)
Lemma revert_acts ce ks : (forall k, In k ks -> In (k, F ce) (b_init SF)) -> forall ks0 m, rest_but (ks ++ ks0) m ->
  exists m', acts_do (W_prot w) m (map (fun k => SetM (nx L k) SetTo (pa (R ce))) ks) m' /\ agree nxcell m' m /\ rest_but ks0 m'.
Proof.
  induction ks as [|k ks IH]; intros Hk ks0 m Hr.
  - exists m. split; [apply do_nil|]. split; [apply agree_refl|exact Hr].
  - assert (Hin : In (k, F ce) (b_init SF)) by (apply Hk; left; reflexivity). destruct (lk_cell _ _ _ HL k (F ce) Hin) as [Hpl Hpr].
    destruct (IH (fun j Hj => Hk j (or_intror Hj)) ks0 (upd m (nx L k) (pa (R ce)))) as (m' & D & A & R').
    + intros j l Hj Hn. destruct (Nat.eq_dec k j) as [<-|N].
      * rewrite (init_fun SF Hinit k l (F ce) Hj Hin). rewrite get_upd_eq, pa_u32. reflexivity.
      * rewrite get_upd_ne; [apply Hr; [exact Hj|]; intros [Z|Z]; [congruence|contradiction]|]. intros Z. apply N. exact (lk_sep _ _ _ HL _ _ _ _ Hin Hj Z).
    + exists m'. split; [|split; [|exact R']].
      * cbn [map]. apply do_cons_M; [exact Hpl|exact Hpr|]. cbn [do_mod]. rewrite pa_u32. exact D.
      * eapply agree_trans; [exact A|]. eapply upd_agree. exact Hin.
Qed.
Lemma revert_run ce ch : forall s, (forall k, In k (concat ch) -> In (k, F ce) (b_init SF)) ->
  ext (revert_trigs ch ce s) SF -> forall x, (forall g, In g (b_pend (revert_trigs ch ce s)) -> R g = x) ->
  exists a, (forall g, In g (b_pend s) -> R g = a) /\
  forall m, rest_but (concat ch) m -> exists m', runs w (pa a, m) (pa x, m') /\ agree nxcell m' m /\ rest m'.
Proof.
  induction ch as [|c r IH]; intros s Hk E x Hx; cbn [revert_trigs concat] in *.
  - exists x. split; [exact Hx|]. intros m Hr. exists m. split; [apply steps_refl|]. split; [apply agree_refl|]. intros k l H. apply Hr; auto.
  - set (s1 := RawTrigger [] _ s) in *. destruct (IH s1 (fun k Hk' => Hk k (in_or_app _ _ _ (or_intror Hk'))) E x Hx) as (b & Pb & Gb).
    pose proof (ext_revert_trigs r ce s1) as EX.
    destruct (raw_run [] (fun L => map (fun k => SetM (nx L k) SetTo (pa (L_F L ce))) c) s (ext_trans _ _ _ EX E) b Pb) as [Pa W].
    exists (TT (pos s)). split; [exact Pa|]. intros m Hr.
    destruct (revert_acts ce c (fun k Hk' => Hk k (in_or_app _ _ _ (or_introl Hk'))) (concat r) m Hr) as (m1 & D & A & R1).
    destruct (Gb m1 R1) as (m2 & X & A2 & R2). exists m2. split; [|split; [eapply agree_trans; eauto|exact R2]].
    eapply steps_trans; [|exact X]. eapply run_true with (1 := W); [reflexivity|apply conds_nil|exact D|]. cbn [rd]. apply pa_u32.
Qed.
End TG.
