(* Code generated for structured programs runs as the programs mean. *)
From Coq Require Import ZArith Lia List Bool ZifyBool ZifyNat.
From Verif Require Import Word Machine MachineProofs VarModel VarSpec FuncModel StruModel StruSpec.
Import ListNotations.
Open Scope Z_scope.

(* ---------- growth of the builder state ---------- *)
Definition ext (s s' : bs) : Prop :=
  (exists x, b_trs s' = b_trs s ++ x) /\ incl (b_sets s) (b_sets s') /\ incl (b_init s) (b_init s') /\
  (b_nd s <= b_nd s')%nat.
Lemma ext_refl s : ext s s.
Proof. split; [exists []; rewrite app_nil_r; reflexivity|]. split; [apply incl_refl|]. split; [apply incl_refl|lia]. Qed.
Lemma ext_trans a b c : ext a b -> ext b c -> ext a c.
Proof.
  intros ((x & X) & A & B & C) ((y & Y) & A' & B' & C'). split; [exists (x ++ y); rewrite Y, X, app_assoc; reflexivity|].
  split; [eapply incl_tran; eauto|]. split; [eapply incl_tran; eauto|lia].
Qed.
Ltac ext0 := split; [exists []; rewrite app_nil_r; reflexivity|]; split; [cbn; intros ? ?; cbn; auto|]; split; [apply incl_refl|cbn; lia].
Lemma ext_forward s : ext s (snd (Forward s)).
Proof. ext0. Qed.
Lemma ext_next s : ext s (snd (NextTrigger s)).
Proof. ext0. Qed.
Lemma ext_db s : ext s (snd (Db4 s)).
Proof. ext0. Qed.
Lemma ext_fset f l s : ext s (fset f l s).
Proof. ext0. Qed.
Lemma ext_setnext l s : ext s (SetNextTrigger l s).
Proof. split; [exists []; rewrite app_nil_r; reflexivity|]. split; [cbn; apply incl_appr, incl_refl|]. split; [apply incl_refl|cbn; lia]. Qed.
Lemma ext_selfnext k l s : ext s (selfnext k l s).
Proof. split; [exists []; rewrite app_nil_r; reflexivity|]. split; [apply incl_refl|]. split; [cbn; intros ? ?; cbn; auto|cbn; lia]. Qed.
Lemma ext_emit it s : ext s (emit it s).
Proof. split; [exists [it]; reflexivity|]. split; [cbn; apply incl_appr, incl_refl|]. split; [apply incl_refl|cbn; lia]. Qed.
Lemma ext_leaf n c s : ext s (emit_code n c s).
Proof. split; [eexists; reflexivity|]. split; [cbn; apply incl_appr, incl_refl|]. split; [apply incl_refl|cbn; lia]. Qed.
Lemma ext_raw cs acts s : ext s (RawTrigger cs acts s).
Proof. eapply ext_trans; [apply ext_emit|apply ext_next]. Qed.
Lemma ext_rawto cs acts l s : ext s (RawTriggerTo cs acts l s).
Proof. apply ext_emit. Qed.

Lemma ext_sub cs t f x s : ext s (branch_sub cs t f x s).
Proof.
  unfold branch_sub. cbn [Forward].
  eapply ext_trans; [apply (ext_forward s)|]. eapply ext_trans; [apply ext_emit|]. eapply ext_trans; [apply ext_selfnext|].
  eapply ext_trans; [apply ext_emit|]. apply ext_fset.
Qed.
Lemma pend_sub cs t f x s : b_pend (branch_sub cs t f x s) = [].
Proof. reflexivity. Qed.
Lemma ext_chunks ch : forall t f x s, ext s (branch_chunks ch t f x s).
Proof.
  induction ch as [|c r IH]; intros t f x s; [apply ext_refl|].
  destruct r as [|c' r'].
  - cbn [branch_chunks Forward]. eapply ext_trans; [apply (ext_forward s)|]. eapply ext_trans; [apply ext_sub|]. apply ext_fset.
  - change (branch_chunks (c :: c' :: r') t f x s) with
      (let (so, s) := Forward s in let s := branch_sub c (F so) f no_acts s in
       let (g, s) := NextTrigger s in let s := fset so (F g) s in branch_chunks (c' :: r') t f x s).
    cbn [Forward]. cbv zeta. unfold NextTrigger at 1.
    eapply ext_trans; [apply (ext_forward s)|]. eapply ext_trans; [apply (ext_sub c (F (b_nf s)) f no_acts)|].
    eapply ext_trans; [apply ext_next|]. eapply ext_trans; [apply ext_fset|]. apply IH.
Qed.

Section Run.
Variable w : world.
Variable L : lay.
Variable SF : bs.
Notation R := (L_F L).
Notation TT := (L_T L).
Notation DD := (L_D L).

(* cells that belong to the generated control flow *)
Definition nxcell (a : Z) : Prop := exists k l, In (k, l) (b_init SF) /\ idx a = idx (nx L k).
Definition priv (a : Z) : Prop := nxcell a \/ exists d, (d < b_nd SF)%nat /\ idx a = idx (DD d).

(* The finished code has been linked and placed. *)
Record linked : Prop := mklinked {
  lk_sets : forall f l, In (f, l) (b_sets SF) -> R f = lv L l;
  lk_placed : forall k it, nth_error (b_trs SF) k = Some it -> W_P w (lbl TT k) = Some (it L);
  lk_cell : forall k l, In (k, l) (b_init SF) -> writable w (nx L k);
  lk_db : forall d, (d < b_nd SF)%nat -> writable w (DD d);
  lk_sep : forall k k' l l', In (k, l) (b_init SF) -> In (k', l') (b_init SF) -> idx (nx L k) = idx (nx L k') -> k = k';
  lk_sep_db : forall d d', (d < b_nd SF)%nat -> (d' < b_nd SF)%nat -> idx (DD d) = idx (DD d') -> d = d';
  lk_sep_both : forall k l d, In (k, l) (b_init SF) -> (d < b_nd SF)%nat -> idx (nx L k) <> idx (DD d) }.
Hypothesis HL : linked.
Hypothesis Hinit : NoDup (map fst (b_init SF)).

Definition rest (m : mem) : Prop := forall k l, In (k, l) (b_init SF) -> get m (nx L k) = pa (lv L l).
Definition sim (m1 m : mem) : Prop := agree priv m1 m /\ rest m1.

Lemma init_fun k l l' : In (k, l) (b_init SF) -> In (k, l') (b_init SF) -> l = l'.
Proof.
  intros A B. revert A B. generalize Hinit. generalize (b_init SF). induction l0 as [|[k0 x] r IH]; [intros _ []|].
  cbn. intros N A B. inversion N as [|? ? N1 N2]; subst.
  destruct A as [E|A], B as [E'|B]; [congruence| | |auto].
  - injection E as -> ->. destruct N1. apply in_map_iff. exists (k, l'). auto.
  - injection E' as -> ->. destruct N1. apply in_map_iff. exists (k, l). auto.
Qed.
Lemma agree_refl S m : agree S m m.
Proof. intros a _. reflexivity. Qed.
Lemma agree_trans S a b c : agree S a b -> agree S b c -> agree S a c.
Proof. intros A B x H. rewrite A, B; auto. Qed.
Lemma agree_sym S a b : agree S a b -> agree S b a.
Proof. intros A x H. rewrite A; auto. Qed.
Lemma nx_priv m1 m : agree nxcell m1 m -> agree priv m1 m.
Proof. intros A x H. apply A. intros Q. apply H. left. exact Q. Qed.
Lemma nx_db m1 m d : agree nxcell m1 m -> (d < b_nd SF)%nat -> get m1 (DD d) = get m (DD d).
Proof. intros A Hd. apply A. intros (k & l & K & E). exact (lk_sep_both HL k l d K Hd (eq_sym E)). Qed.
Lemma sim_nx m2 m1 m : sim m1 m -> agree nxcell m2 m1 -> rest m2 -> sim m2 m.
Proof. intros [A _] B C. split; [|exact C]. eapply agree_trans; [apply nx_priv; exact B|exact A]. Qed.
Lemma ext_placed s' k it : ext s' SF -> nth_error (b_trs s') k = Some it -> W_P w (lbl TT k) = Some (it L).
Proof.
  intros ((x & E) & _) H. apply (lk_placed HL). rewrite E. rewrite nth_error_app1; [exact H|]. apply nth_error_Some. congruence.
Qed.
Lemma ext_set s' f l : ext s' SF -> In (f, l) (b_sets s') -> R f = lv L l.
Proof. intros (_ & A & _) H. apply (lk_sets HL). apply A. exact H. Qed.
Lemma pend_set s l f : ext (SetNextTrigger l s) SF -> In f (b_pend s) -> R f = lv L l.
Proof. intros E H. eapply ext_set; [exact E|]. cbn. apply in_app_iff. left. apply in_map_iff. exists f. auto. Qed.
Lemma emit_at it s : ext (emit it s) SF -> W_P w (lbl TT (pos s)) = Some (it L) /\ (forall f, In f (b_pend s) -> R f = TT (pos s)).
Proof.
  intros E. split.
  - apply (ext_placed _ _ it E). cbn. rewrite nth_error_app2 by (unfold pos; lia). unfold pos. rewrite Nat.sub_diag. reflexivity.
  - intros f Hf. apply (ext_set _ f (P (pos s)) E). cbn. apply in_app_iff. left. apply in_map_iff. exists f. auto.
Qed.

(* ---------- conditions ---------- *)
(* the condition does not look at rewritten next pointers *)
Definition steady (m : mem) (c : cond) : Prop := forall m2, agree nxcell m2 m ->
  cond_ok m2 c /\ cond_type (rd m2 (c_w3 c)) <> 0 /\ eval_cond m2 c = eval_cond m c.
Lemma steady_trans m m2 c : steady m c -> agree nxcell m2 m -> steady m2 c.
Proof.
  intros H A m3 B. destruct (H m3) as (X & Y & Z); [eapply agree_trans; eauto|]. split; [exact X|]. split; [exact Y|].
  rewrite Z. symmetry. apply H. exact A.
Qed.
Lemma steady_conds m m2 cs : (forall c, In c cs -> steady m c) -> agree nxcell m2 m -> conds_are m2 cs (forallb (eval_cond m) cs).
Proof.
  intros H A. induction cs as [|c r IH]; [apply conds_nil|].
  destruct (H c (or_introl eq_refl) m2 A) as (X & Y & Z). destruct IH as [I1 I2]; [intros; apply H; right; auto|].
  split; cbn [conds_ok eval_conds forallb].
  - right. split; [exact X|]. intros _. exact I1.
  - rewrite I2, Z. destruct (Z.eqb_spec (cond_type (rd m2 (c_w3 c))) 0); [contradiction|reflexivity].
Qed.

(* ---------- branches ---------- *)
Definition goes (a b : Z) (m m' : mem) : Prop := runs w (pa a, m) (pa b, m') /\ agree nxcell m' m /\ rest m'.
Lemma goes_trans a b c m1 m2 m3 : goes a b m1 m2 -> goes b c m2 m3 -> goes a c m1 m3.
Proof.
  intros (A & B & C) (A' & B' & C'). split; [eapply steps_trans; eauto|]. split; [eapply agree_trans; eauto|exact C'].
Qed.

Lemma upd_agree m k l v : In (k, l) (b_init SF) -> agree nxcell (upd m (nx L k) v) m.
Proof. intros H x Hx. apply get_upd_ne. intros E. apply Hx. exists k, l. auto. Qed.
Lemma upd_rest m k l v : In (k, l) (b_init SF) ->
  (forall k' l', k' <> k -> In (k', l') (b_init SF) -> get m (nx L k') = pa (lv L l')) -> u32 v = pa (lv L l) -> rest (upd m (nx L k) v).
Proof.
  intros H Hm Hv k' l' H'. destruct (Nat.eq_dec k' k) as [->|N].
  - rewrite get_upd_eq, Hv. rewrite (init_fun k l l'); auto.
  - rewrite get_upd_ne; [apply Hm; auto|]. intros E. apply N. symmetry. exact (lk_sep HL _ _ _ _ H H' E).
Qed.
Lemma pa_u32 x : u32 (pa x) = pa x.
Proof. apply u32_idem. Qed.

Lemma sub_run cs t f s :
  ext (branch_sub cs t f no_acts s) SF ->
  (forall g, In g (b_pend s) -> R g = TT (pos s)) /\
  forall m, rest m -> (forall c, In c (at_lay L cs) -> steady m c) ->
  exists m', goes (TT (pos s)) (lv L (if forallb (eval_cond m) (at_lay L cs) then t else f)) m m'.
Proof.
  intros E. set (k := pos s) in *.
  unfold branch_sub in E. cbn [Forward] in E. cbv zeta in E. fold k in E.
  set (s1 := mkbs (b_trs s) (b_pend s) (b_sets s) (S (b_nf s)) (b_nd s) (b_init s)) in E.
  set (it1 := fun L => mktrig (at_lay L cs) [SetM (nx L k) SetTo (pa (L_F L (b_nf s)))] (Mem (nx L k)) (Imm 4)) in E.
  set (it2 := fun L => RawTrig [] (no_acts L ++ [SetM (nx L k) SetTo (pa (lv L f))]) (pa (lv L t))) in E.
  set (s2 := selfnext k f (emit it1 s1)) in E.
  assert (E2 : ext (emit it2 s2) SF) by (eapply ext_trans; [apply ext_fset|exact E]).
  assert (E1 : ext (emit it1 s1) SF).
  { eapply ext_trans; [apply ext_selfnext|]. eapply ext_trans; [apply ext_emit|exact E2]. }
  destruct (emit_at it1 s1 E1) as [P1 H1]. destruct (emit_at it2 s2 E2) as [P2 _].
  assert (Hk2 : pos s2 = S k) by (cbn; rewrite app_length; cbn; unfold k, pos; lia).
  rewrite Hk2 in P2. change (pos s1) with k in *.
  assert (Htj : R (b_nf s) = TT (S k)).
  { apply (ext_set _ (b_nf s) (P (S k)) E). left. reflexivity. }
  assert (Hin : In (k, f) (b_init SF)).
  { destruct E2 as (_ & _ & X & _). apply X. left. reflexivity. }
  split; [intros g Hg; apply H1; exact Hg|].
  intros m Hr Hc.
  destruct (lk_cell HL k f Hin) as [Hpl Hpr].
  assert (HC : conds_are m (at_lay L cs) (forallb (eval_cond m) (at_lay L cs))) by (apply steady_conds; [exact Hc|apply agree_refl]).
  destruct (forallb (eval_cond m) (at_lay L cs)).
  - set (m2 := upd m (nx L k) (pa (TT (S k)))). set (m3 := upd m2 (nx L k) (pa (lv L f))).
    exists m3. split; [|split].
    + eapply steps_trans with (s2 := (lbl TT (S k), m2)).
      * eapply run_true with (1 := P1); [reflexivity|exact HC| |].
        -- apply do_cons_M; [exact Hpl|exact Hpr|]. cbn [do_mod]. rewrite pa_u32, Htj. apply do_nil.
        -- cbn [rd]. unfold m2. rewrite get_upd_eq. apply pa_u32.
      * eapply run_true with (1 := P2); [reflexivity|apply conds_nil| |].
        -- cbn [no_acts app]. apply do_cons_M; [exact Hpl|exact Hpr|]. cbn [do_mod]. rewrite pa_u32. apply do_nil.
        -- cbn [rd]. apply pa_u32.
    + eapply agree_trans; eapply upd_agree; exact Hin.
    + eapply upd_rest; [exact Hin| |apply pa_u32]. intros k' l' Hn Hi. unfold m2. rewrite get_upd_ne.
      * apply Hr. exact Hi.
      * intros Q. apply Hn. symmetry. exact (lk_sep HL _ _ _ _ Hin Hi Q).
  - exists m. split; [|split; [apply agree_refl|exact Hr]].
    eapply run_false with (1 := P1); [reflexivity|exact HC|]. cbn [rd]. apply Hr. exact Hin.
Qed.

Lemma chunks_run ch : forall t f s,
  ch <> [] -> ext (branch_chunks ch t f no_acts s) SF ->
  b_pend (branch_chunks ch t f no_acts s) = [] /\
  (forall g, In g (b_pend s) -> R g = TT (pos s)) /\
  forall m, rest m -> (forall c, In c (at_lay L (concat ch)) -> steady m c) ->
  exists m', goes (TT (pos s)) (lv L (if forallb (eval_cond m) (at_lay L (concat ch)) then t else f)) m m'.
Proof.
  induction ch as [|c r IH]; intros t f s Hne E; [contradiction|]. destruct r as [|c' r'].
  - cbn [branch_chunks Forward] in E |- *. cbv zeta in E |- *.
    set (s1 := mkbs (b_trs s) (b_pend s) (b_sets s) (S (b_nf s)) (b_nd s) (b_init s)) in *.
    destruct (sub_run c (F (b_nf s)) f s1) as [A B]; [eapply ext_trans; [apply ext_fset|exact E]|].
    split; [reflexivity|]. split; [exact A|]. intros m Hr Hc. cbn [concat] in *. rewrite app_nil_r in *.
    destruct (B m Hr Hc) as (m' & G). exists m'. change (pos s1) with (pos s) in G.
    destruct (forallb (eval_cond m) (at_lay L c)); [|exact G]. cbn [lv] in G.
    rewrite (ext_set _ (b_nf s) t E) in G; [exact G|left; reflexivity].
  - change (branch_chunks (c :: c' :: r') t f no_acts s) with
      (let (so, s) := Forward s in let s := branch_sub c (F so) f no_acts s in
       let (g, s) := NextTrigger s in let s := fset so (F g) s in branch_chunks (c' :: r') t f no_acts s) in *.
    cbn [Forward] in *. cbv zeta in *. unfold NextTrigger at 1 in E. unfold NextTrigger at 1.
    set (s1 := mkbs (b_trs s) (b_pend s) (b_sets s) (S (b_nf s)) (b_nd s) (b_init s)) in *.
    set (s2 := branch_sub c (F (b_nf s)) f no_acts s1) in *.
    set (s3 := mkbs (b_trs s2) (b_pend s2 ++ [b_nf s2]) (b_sets s2) (S (b_nf s2)) (b_nd s2) (b_init s2)) in *.
    set (s4 := fset (b_nf s) (F (b_nf s2)) s3) in *.
    destruct (IH t f s4) as (Hp & A4 & B4); [discriminate|exact E|].
    assert (E4 : ext s4 SF) by (eapply ext_trans; [apply ext_chunks|exact E]).
    destruct (sub_run c (F (b_nf s)) f s1) as [A B].
    { eapply ext_trans; [|exact E4]. eapply ext_trans; [apply (ext_next s2)|]. apply ext_fset. }
    split; [exact Hp|]. split; [exact A|]. intros m Hr Hc.
    change (concat (c :: c' :: r')) with (c ++ concat (c' :: r')) in *.
    assert (Ha : at_lay L (c ++ concat (c' :: r')) = at_lay L c ++ at_lay L (concat (c' :: r'))) by apply map_app.
    rewrite Ha in *. rewrite forallb_app.
    destruct (B m Hr) as (m' & G); [intros; apply Hc, in_or_app; auto|]. change (pos s1) with (pos s) in G.
    destruct (forallb (eval_cond m) (at_lay L c)); cbn [andb]; [|exists m'; exact G].
    assert (Q : lv L (F (b_nf s)) = TT (pos s4)).
    { cbn [lv]. rewrite (ext_set _ (b_nf s) (F (b_nf s2)) E4) by (left; reflexivity). cbn [lv]. apply A4. cbn. left. reflexivity. }
    rewrite Q in G. destruct G as (G1 & G2 & G3).
    destruct (B4 m' G3) as (m2 & G').
    { intros x Hx. eapply steady_trans; [apply Hc, in_or_app; auto|exact G2]. }
    exists m2.
    replace (forallb (eval_cond m) (at_lay L (concat (c' :: r')))) with (forallb (eval_cond m') (at_lay L (concat (c' :: r')))).
    + eapply goes_trans; [split; [exact G1|split; [exact G2|exact G3]]|exact G'].
    + clear -Hc G2. assert (H : forall x, In x (at_lay L (concat (c' :: r'))) -> eval_cond m' x = eval_cond m x).
      { intros x Hx. apply (Hc x); [apply in_or_app; auto|exact G2]. }
      revert H. generalize (at_lay L (concat (c' :: r'))). induction l as [|x l IHl]; intros H; [reflexivity|].
      cbn [forallb]. rewrite (H x), IHl; auto; [intros; apply H; right; auto|left; reflexivity].
Qed.

Lemma groups_concat {A} n fuel : forall l : list A, (0 < n)%nat -> (length l <= fuel)%nat -> concat (groups_of n fuel l) = l.
Proof.
  induction fuel as [|fu IH]; intros l Hn Hl; [destruct l; [reflexivity|cbn in Hl; lia]|].
  destruct l as [|x l]; [reflexivity|]. cbn [groups_of concat]. rewrite IH; [apply firstn_skipn|exact Hn|].
  rewrite skipn_length. cbn [length] in *. lia.
Qed.
Lemma every_concat {A} n (l : list A) : (0 < n)%nat -> concat (every n l) = l.
Proof. intros H. apply groups_concat; auto. Qed.
Lemma every_nonempty {A} n (l : list A) : l <> [] -> every n l <> [].
Proof. destruct l; [contradiction|]. unfold every. cbn. discriminate. Qed.
Lemma every_size {A} n (l : list A) x : (0 < n)%nat -> In x (every n l) -> (length x <= n)%nat /\ x <> [].
Proof.
  intros Hn. unfold every. generalize (length l) as fu. intros fu. revert l. induction fu as [|fu IH]; intros l H; [destruct H|].
  destruct l as [|y l]; [destruct H|]. cbn [groups_of In] in H. destruct H as [<-|H]; [|apply (IH _ H)].
  rewrite firstn_length. split; [lia|]. destruct n; [lia|discriminate].
Qed.

(* the branch as a whole: control goes to exactly one of the two places *)
Lemma branch_run cs t f s :
  ext (EUDBranch cs t f s) SF ->
  b_pend (EUDBranch cs t f s) = [] /\
  exists a, (forall g, In g (b_pend s) -> R g = a) /\
  forall m, rest m -> (forall c, In c (at_lay L cs) -> steady m c) ->
  exists m', goes a (lv L (if forallb (eval_cond m) (at_lay L cs) then t else f)) m m'.
Proof.
  unfold EUDBranch. destruct cs as [|c cs].
  - intros E. split; [reflexivity|]. exists (lv L t). split; [intros g Hg; eapply pend_set; eauto|].
    intros m Hr _. exists m. split; [apply steps_refl|]. split; [apply agree_refl|exact Hr].
  - intros E. destruct (chunks_run (every 16 (c :: cs)) t f s) as (A & B & C); [apply every_nonempty; discriminate|exact E|].
    rewrite every_concat in C by lia. split; [exact A|]. exists (TT (pos s)). auto.
Qed.
Lemma ext_branch cs t f s : ext s (EUDBranch cs t f s).
Proof. unfold EUDBranch. destruct cs; [apply ext_setnext|apply ext_chunks]. Qed.
Lemma ext_jump_if neg cs l s : ext s (jump_if neg cs l s).
Proof.
  unfold jump_if, EUDJumpIf, EUDJumpIfNot. destruct neg; cbn [Forward]; cbv zeta; unfold NextTrigger.
  - eapply ext_trans; [apply (ext_forward s)|]. eapply ext_trans; [apply (ext_branch cs l (F (b_nf s)))|].
    eapply ext_trans; [apply ext_next|apply ext_fset].
  - eapply ext_trans; [apply (ext_forward s)|]. eapply ext_trans; [apply (ext_branch cs (F (b_nf s)) l)|].
    eapply ext_trans; [apply ext_next|apply ext_fset].
Qed.
Lemma jump_pend neg cs l s : exists g, In g (b_pend (jump_if neg cs l s)).
Proof.
  unfold jump_if, EUDJumpIf, EUDJumpIfNot. destruct neg; cbn [Forward]; cbv zeta; unfold NextTrigger; eexists; cbn [fset b_pend]; apply in_or_app; right; left; reflexivity.
Qed.
Lemma jump_run neg cs l s :
  ext (jump_if neg cs l s) SF -> forall x, (forall g, In g (b_pend (jump_if neg cs l s)) -> R g = x) ->
  exists a, (forall g, In g (b_pend s) -> R g = a) /\
  forall m, rest m -> (forall c, In c (at_lay L cs) -> steady m c) ->
  exists m', goes a (if holds neg (at_lay L cs) m then x else lv L l) m m'.
Proof.
  unfold jump_if, EUDJumpIf, EUDJumpIfNot, holds. destruct neg; cbn [Forward xorb]; cbv zeta; unfold NextTrigger; intros E x Hx.
  - set (s1 := mkbs (b_trs s) (b_pend s) (b_sets s) (S (b_nf s)) (b_nd s) (b_init s)) in *.
    set (s2 := EUDBranch cs l (F (b_nf s)) s1) in *.
    destruct (branch_run cs l (F (b_nf s)) s1) as (_ & a & A & B).
    { fold s2. eapply ext_trans; [apply (ext_next s2)|]. eapply ext_trans; [apply ext_fset|exact E]. }
    exists a. split; [exact A|]. intros m Hr Hc. destruct (B m Hr Hc) as (m' & G). exists m'.
    destruct (forallb (eval_cond m) (at_lay L cs)); cbn [negb]; [exact G|].
    cbn [lv] in G. rewrite (ext_set _ (b_nf s) (F (b_nf s2)) E) in G by (left; reflexivity). cbn [lv] in G.
    rewrite Hx in G; [exact G|]. cbn [fset b_pend]. apply in_or_app. right. left. reflexivity.
  - set (s1 := mkbs (b_trs s) (b_pend s) (b_sets s) (S (b_nf s)) (b_nd s) (b_init s)) in *.
    set (s2 := EUDBranch cs (F (b_nf s)) l s1) in *.
    destruct (branch_run cs (F (b_nf s)) l s1) as (_ & a & A & B).
    { fold s2. eapply ext_trans; [apply (ext_next s2)|]. eapply ext_trans; [apply ext_fset|exact E]. }
    exists a. split; [exact A|]. intros m Hr Hc. destruct (B m Hr Hc) as (m' & G). exists m'.
    destruct (forallb (eval_cond m) (at_lay L cs)); [|exact G].
    cbn [lv] in G. rewrite (ext_set _ (b_nf s) (F (b_nf s2)) E) in G by (left; reflexivity). cbn [lv] in G.
    rewrite Hx in G; [exact G|]. cbn [fset b_pend]. apply in_or_app. right. left. reflexivity.
Qed.
End Run.
