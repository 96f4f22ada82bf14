(* Final theorems about operators on variables (C07, C10, C14, C15 in part). *)
From Coq Require Import ZArith Lia List Bool.
From Verif Require Import Word Machine MachineProofs VarModel VarSpec VarProofs SeqProofs VbufModel VbufWorld ExWorld RunDec SeqRefute
  OpsModel OpsSpec OpsBase OpsProofs OpsArith OpsBits OpsXor OpsShift OpsCmp OpsFinal.
Import ListNotations.
Open Scope Z_scope.

Section Operators.
Variable w : world.
Hypothesis Hw : world_ok w.
Notation vars := (W_vars w).
Notation val v := (vc v FVal).
Variable same same_u : dst -> dst -> bool.
Hypothesis Hsame : forall a b, same a b = true -> u32 (dst_epd a) = u32 (dst_epd b).
Variable T : nat -> Z.
Variable addor : Z.

Ltac Q L := intros; eapply L; eauto.
Lemma split_let {A B} (X : A * B) (P : B -> Prop) (Q : A -> B -> Prop) : P (snd X) -> (let (c, r) := X in Q c r) -> let (c, r) := X in P r /\ Q c r.
Proof. destruct X. auto. Qed.
Lemma split_masks k (X : list trig * Z) (P : Z -> Prop) vs cells m l : P (snd X) -> incl cells (code_masks T k (fst X)) ->
  ((forall y, In y cells -> patchable w y) -> let (c, r) := X in placed w T k c -> does w T k c (tmp vs cells) m (l r)) ->
  let (c, r) := X in P r /\ ((forall e, In e (code_masks T k c) -> patchable w e) -> placed w T k c ->
     does w T k c (tmp vs (code_masks T k c)) m (l r)).
Proof. destruct X. cbn [fst snd]. intros. split; auto. apply with_masks with (cells := cells); auto. Qed.
Lemma split_tests k (X : list trig * cond) (P : Z -> Prop) Y vs cells m l b : P Y ->
  (let (c, d) := X in let r := Y in placed w T k c -> tests w T k c (tmp vs (val r :: cells)) m (l r) d b) ->
  let (c, d) := X in exists r, P r /\ (placed w T k c -> tests w T k c (tmp vs (val r :: cells)) m (l r) d b).
Proof. destruct X. intros. exists Y. auto. Qed.

Theorem C07_v_assign : forall k self other m,
  In self vars -> ord_src w m other -> placed w T k (v_assign same same_u T k self other) ->
  does w T k (v_assign same same_u T k self other) (tmp (svar other) []) m [(val self, sval m other)].
Proof. Q v_assign_does. Qed.

Theorem C07_v_iadd : forall k self other m,
  In self vars -> ord_src w m other -> placed w T k (v_iadd same same_u T k self other) ->
  does w T k (v_iadd same same_u T k self other) (tmp (svar other) []) m
    [(val self, u32 (get m (val self) + sval m other))].
Proof. Q v_iadd_does. Qed.

Theorem C07_v_isub : forall k self other m,
  In self vars -> ord_src w m other -> In addor vars -> addor_ok addor m ->
  ~ In self (addor :: svar other) -> ~ In addor (svar other) ->
  placed w T k (v_isub same same_u addor T k self other) ->
  exists m', runs w (lbl T k, m) (lbl T (k + length (v_isub same same_u addor T k self other)), m') /\
    changes (tmp (svar other) [val addor; vc addor FNext; vc addor FDest]) m m'
      [(val self, u32 (get m (val self) - sval m other))] /\ keeps w m m' /\ addor_ok addor m'.
Proof. Q v_isub_does. Qed.

Theorem C07_lv_assign : forall a k c m,
  valcell w a -> placed w T k (lv_assign T k a c) ->
  does w T k (lv_assign T k a c) (tmp [] []) m [(a, u32 c)].
Proof. Q lv_assign_does. Qed.

Theorem C07_lv_iadd : forall a k c m,
  valcell w a -> placed w T k (lv_iadd T k a c) ->
  does w T k (lv_iadd T k a c) (tmp [] []) m [(a, u32 (get m a + c))].
Proof. Q lv_iadd_does. Qed.

Theorem C07_lv_isub : forall a k c m,
  valcell w a -> placed w T k (lv_isub T k a c) ->
  does w T k (lv_isub T k a c) (tmp [] []) m [(a, Z.max 0 (get m a - u32 c))].
Proof. Q lv_isub_does. Qed.

Theorem C07_lv_ineg : forall a k m,
  valcell w a -> placed w T k (lv_ineg T k a) ->
  does w T k (lv_ineg T k a) (tmp [] []) m [(a, u32 (- get m a))].
Proof. Q lv_ineg_does. Qed.

Theorem C07_lv_iabs : forall a k m,
  valcell w a -> placed w T k (lv_iabs T k a) ->
  does w T k (lv_iabs T k a) (tmp [] []) m [(a, if get m a <? 2^31 then get m a else 2^32 - get m a)].
Proof. Q lv_iabs_does. Qed.

Theorem C07_v_add : forall k self_r other_r self other t m,
  In self vars -> ordinary m self -> ord_src w m other ->
  In t vars -> t <> self -> ~ In t (svar other) ->
  let (code, r) := v_add same same_u T k self_r other_r self other t in
  fresh_result self_r other_r self other t r /\
  (placed w T k code -> does w T k code (tmp (self :: svar other) []) m [(val r, u32 (get m (val self) + sval m other))]).
Proof. intros; apply split_let with (P := fresh_result _ _ _ _ _); [fresh_tac|eapply v_add_does; eauto]. Qed.

Theorem C07_v_radd : forall k self_r self other t m,
  In self vars -> ordinary m self -> ord_src w m other ->
  In t vars -> t <> self -> ~ In t (svar other) ->
  let (code, r) := v_radd same same_u T k self_r self other t in
  fresh_result self_r false self other t r /\
  (placed w T k code -> does w T k code (tmp (self :: svar other) []) m [(val r, u32 (sval m other + get m (val self)))]).
Proof. intros; apply split_let with (P := fresh_result _ _ _ _ _); [fresh_tac|eapply v_radd_does; eauto]. Qed.

Theorem C07_v_sub : forall k self_r other_r self other t m,
  In self vars -> ordinary m self -> ord_src w m other ->
  In t vars -> t <> self -> ~ In t (svar other) ->
  In addor vars -> addor_ok addor m -> ~ In addor (self :: t :: svar other) ->
  (self_r = true \/ other_r = true -> ~ In self (svar other)) ->
  let (code, r) := v_sub same same_u addor T k self_r other_r self other t in
  fresh_result self_r other_r self other t r /\
  (placed w T k code -> does w T k code (tmp (self :: svar other) [val addor; vc addor FNext; vc addor FDest]) m [(val r, u32 (get m (val self) - sval m other))]).
Proof. intros; apply split_let with (P := fresh_result _ _ _ _ _); [fresh_tac|eapply v_sub_does; eauto]. Qed.

Theorem C07_v_rsub : forall k self_r self other t m,
  In self vars -> ordinary m self -> ord_src w m other ->
  In t vars -> t <> self -> ~ In t (svar other) ->
  let (code, r) := v_rsub same same_u T k self_r self other t in
  fresh_result self_r false self other t r /\
  (placed w T k code -> does w T k code (tmp (self :: svar other) []) m [(val r, u32 (sval m other - get m (val self)))]).
Proof. intros; apply split_let with (P := fresh_result _ _ _ _ _); [fresh_tac|eapply v_rsub_does; eauto]. Qed.

Theorem C07_v_neg : forall k self_r self t m,
  In self vars -> ordinary m self -> In t vars -> t <> self ->
  let (code, r) := v_neg same same_u T k self_r self t in
  fresh_result self_r false self (SConst 0) t r /\
  (placed w T k code -> does w T k code (tmp [self] []) m [(val r, u32 (- get m (val self)))]).
Proof. intros; apply split_let with (P := fresh_result _ _ _ _ _); [fresh_tac|eapply v_neg_does; eauto]. Qed.

Theorem C14_v_ior : forall k self other m,
  In self vars -> ord_src w m other ->
  let code := v_ior same same_u T k self other in
  (forall e, In e (code_masks T k code) -> patchable w e) -> placed w T k code ->
  does w T k code (tmp (svar other) (code_masks T k code)) m
    [(val self, Z.lor (get m (val self)) (sval m other))].
Proof. intros; eapply with_masks; [apply ior_masks; exact Hsame|intros; eapply v_ior_does; eauto|auto|auto]. Qed.

Theorem C14_v_iand : forall k self other m,
  In self vars -> ord_src w m other ->
  let code := v_iand same same_u T k self other in
  (forall e, In e (code_masks T k code) -> patchable w e) -> placed w T k code ->
  does w T k code (tmp (svar other) (code_masks T k code)) m
    [(val self, Z.land (get m (val self)) (sval m other))].
Proof. intros; eapply with_masks; [apply iand_masks; exact Hsame|intros; eapply v_iand_does; eauto|auto|auto]. Qed.

Theorem C14_v_ixor : forall k self other m,
  In self vars -> ord_src w m other ->
  placed w T k (v_ixor T k self other) ->
  does w T k (v_ixor T k self other) (tmp (svar other) []) m
    [(val self, Z.lxor (get m (val self)) (sval m other))].
Proof. Q v_ixor_does. Qed.

Theorem C14_lv_ior : forall a k c m,
  valcell w a -> placed w T k (lv_ior T k a c) ->
  does w T k (lv_ior T k a c) (tmp [] []) m [(a, Z.lor (get m a) (u32 c))].
Proof. Q lv_ior_does. Qed.

Theorem C14_lv_iand : forall a k c m,
  valcell w a -> placed w T k (lv_iand T k a c) ->
  does w T k (lv_iand T k a c) (tmp [] []) m [(a, Z.land (get m a) (u32 c))].
Proof. Q lv_iand_does. Qed.

Theorem C14_lv_ixor : forall a k c m,
  valcell w a -> placed w T k (lv_ixor T k a c) ->
  does w T k (lv_ixor T k a c) (tmp [] []) m [(a, Z.lxor (get m a) (u32 c))].
Proof. Q lv_ixor_does. Qed.

Theorem C14_lv_iinvert : forall a k m,
  valcell w a -> placed w T k (lv_iinvert T k a) ->
  does w T k (lv_iinvert T k a) (tmp [] []) m [(a, 0xFFFFFFFF - get m a)].
Proof. Q lv_iinvert_does. Qed.

Theorem C14_v_and : forall k self_r other_r self other t m,
  In self vars -> ordinary m self -> ord_src w m other ->
  In t vars -> t <> self -> ~ In t (svar other) ->
  let (code, r) := v_and same same_u T k self_r other_r self other t in
  fresh_result self_r other_r self other t r /\
  ((forall e, In e (code_masks T k code) -> patchable w e) -> placed w T k code ->
   does w T k code (tmp (self :: svar other) (code_masks T k code)) m
    [(val r, Z.land (get m (val self)) (sval m other))]).
Proof. intros; eapply split_masks with (P := fresh_result _ _ _ _ _); [fresh_tac|apply and_masks; exact Hsame|intros; eapply v_and_does; eauto]. Qed.

Theorem C14_v_or : forall k self_r other_r self other t m,
  In self vars -> ordinary m self -> ord_src w m other ->
  In t vars -> t <> self -> ~ In t (svar other) ->
  let (code, r) := v_or same same_u T k self_r other_r self other t in
  fresh_result self_r other_r self other t r /\
  ((forall e, In e (code_masks T k code) -> patchable w e) -> placed w T k code ->
   does w T k code (tmp (self :: svar other) (code_masks T k code)) m
    [(val r, Z.lor (get m (val self)) (sval m other))]).
Proof. intros; eapply split_masks with (P := fresh_result _ _ _ _ _); [fresh_tac|apply or_masks; exact Hsame|intros; eapply v_or_does; eauto]. Qed.

Theorem C14_v_xor : forall k self_r other_r self other t m,
  In self vars -> ordinary m self -> ord_src w m other ->
  In t vars -> t <> self -> ~ In t (svar other) ->
  (self_r = false -> other_r = false -> ~ In self (svar other)) ->
  let (code, r) := v_xor same same_u T k self_r other_r self other t in
  fresh_result self_r other_r self other t r /\
  (placed w T k code -> does w T k code (tmp (self :: svar other) []) m [(val r, Z.lxor (get m (val self)) (sval m other))]).
Proof. intros; apply split_let with (P := fresh_result _ _ _ _ _); [fresh_tac|eapply v_xor_does; eauto]. Qed.

Theorem C14_v_rxor : forall k self_r self other t m,
  In self vars -> ordinary m self -> ord_src w m other ->
  In t vars -> t <> self -> ~ In t (svar other) -> (self_r = false -> ~ In self (svar other)) ->
  let (code, r) := v_rxor same same_u T k self_r self other t in
  fresh_result self_r false self other t r /\
  (placed w T k code -> does w T k code (tmp (self :: svar other) []) m [(val r, Z.lxor (sval m other) (get m (val self)))]).
Proof. intros; apply split_let with (P := fresh_result _ _ _ _ _); [fresh_tac|eapply v_rxor_does; eauto]. Qed.

Theorem C14_v_invert : forall k self_r self t m,
  In self vars -> ordinary m self -> In t vars -> t <> self ->
  let (code, r) := v_invert same same_u T k self_r self t in
  fresh_result self_r false self (SConst 0) t r /\
  (placed w T k code -> does w T k code (tmp [self] []) m [(val r, 0xFFFFFFFF - get m (val self))]).
Proof. intros; apply split_let with (P := fresh_result _ _ _ _ _); [fresh_tac|eapply v_invert_does; eauto]. Qed.

Theorem C14_f_bitnand : forall k self_r other_r self other t m,
  In self vars -> ordinary m self -> ord_src w m other ->
  In t vars -> t <> self -> ~ In t (svar other) ->
  let (code, r) := f_bitnand same same_u T k self_r other_r self other t in
  fresh_result self_r other_r self other t r /\
  ((forall e, In e (code_masks T k code) -> patchable w e) -> placed w T k code ->
   does w T k code (tmp (self :: svar other) (code_masks T k code)) m
    [(val r, 0xFFFFFFFF - Z.land (get m (val self)) (sval m other))]).
Proof. intros; eapply split_masks with (P := fresh_result _ _ _ _ _); [fresh_tac|apply nand_masks; exact Hsame|intros; eapply f_bitnand_does; eauto]. Qed.

Theorem C14_f_bitnor : forall k self_r other_r self other t m,
  In self vars -> ordinary m self -> ord_src w m other ->
  In t vars -> t <> self -> ~ In t (svar other) ->
  let (code, r) := f_bitnor same same_u T k self_r other_r self other t in
  fresh_result self_r other_r self other t r /\
  ((forall e, In e (code_masks T k code) -> patchable w e) -> placed w T k code ->
   does w T k code (tmp (self :: svar other) (code_masks T k code)) m
    [(val r, 0xFFFFFFFF - Z.lor (get m (val self)) (sval m other))]).
Proof. intros; eapply split_masks with (P := fresh_result _ _ _ _ _); [fresh_tac|apply nor_masks; exact Hsame|intros; eapply f_bitnor_does; eauto]. Qed.

Theorem C14_f_bitnxor : forall k a_r b_r r_r a other t1 t m,
  In a vars -> ordinary m a -> ord_src w m other ->
  In t vars -> t <> a -> ~ In t (svar other) ->
  In t1 vars -> ordinary m t1 -> t1 <> a -> t1 <> t -> ~ In t1 (svar other) -> ~ In a (svar other) ->
  let (code, r) := f_bitnxor same same_u T k a_r b_r r_r a other t1 t in
  placed w T k code ->
  does w T k code (tmp (a :: t1 :: svar other) (match other with SConst _ => [] | SVar b => [val (if b_r then b else t1)] end)) m
    [(val r, 0xFFFFFFFF - Z.lxor (get m (val a)) (sval m other))].
Proof. Q f_bitnxor_does. Qed.

Theorem C15_lv_ilshift : forall a k n m,
  valcell w a -> 0 <= n -> placed w T k (lv_ilshift T k a n) ->
  does w T k (lv_ilshift T k a n) (tmp [] []) m [(a, u32 (Z.shiftl (get m a) n))].
Proof. Q lv_ilshift_does. Qed.

Theorem C15_lv_irshift : forall a k n m,
  valcell w a -> 0 <= n -> placed w T k (lv_irshift T k a n) ->
  does w T k (lv_irshift T k a n) (tmp [] []) m [(a, Z.shiftr (get m a) n)].
Proof. Q lv_irshift_does. Qed.

Theorem C10_v_eq : forall k self_r other_r self o t m,
  In self vars -> ordinary m self -> In o vars -> ordinary m o ->
  In t vars -> t <> self -> t <> o ->
  In addor vars -> addor_ok addor m -> ~ In addor [self; t; o] ->
  (self_r = true \/ other_r = true -> self <> o) ->
  let (code, c) := v_eq same same_u addor T k self_r other_r self o t in
  exists r, fresh_result self_r other_r self (SVar o) t r /\
  (placed w T k code -> tests w T k code (tmp [self; o] (val r :: [val addor; vc addor FNext; vc addor FDest])) m [val r] c (get m (val self) =? get m (val o))).
Proof. intros; eapply (split_tests k _ (fresh_result _ _ _ _ _) _ _ _ _ (fun r => [val r])); [|eapply v_eq_ok; eauto]; fresh_tac. Qed.

Theorem C10_v_ne : forall k self_r other_r self other t m,
  In self vars -> ordinary m self -> ord_src w m other ->
  In t vars -> t <> self -> ~ In t (svar other) ->
  In addor vars -> addor_ok addor m -> ~ In addor (self :: t :: svar other) ->
  (self_r = true \/ other_r = true -> ~ In self (svar other)) ->
  let (code, c) := v_ne same same_u addor T k self_r other_r self other t in
  exists r, fresh_result self_r other_r self other t r /\
  (placed w T k code -> tests w T k code (tmp (self :: svar other) (val r :: [val addor; vc addor FNext; vc addor FDest])) m [val r; val self] c
    (negb (get m (val self) =? sval m other))).
Proof. intros; eapply (split_tests k _ (fresh_result _ _ _ _ _) _ _ _ _ (fun r => [val r; val self])); [|eapply v_ne_ok; eauto]; fresh_tac. Qed.

Theorem C10_v_cmp : forall k cm self other cell m,
  In self vars -> ord_src w m other ->
  (forall o, other = SVar o -> patchable w (cell + 2)) ->
  let (code, c) := v_cmp same same_u T k cm self other cell in
  placed w T k code ->
  tests w T k code (tmp (svar other) [cell + 2]) m [val self; cell + 2] c (do_cmp cm (get m (val self)) (sval m other)).
Proof. Q v_cmp_ok. Qed.

Theorem C10_v_lt : forall k self other cell m,
  In self vars -> ordinary m self -> ord_src w m other ->
  (forall o, other = SVar o -> patchable w cell) ->
  (forall c, other = SConst c -> c <= 2^32) ->
  let (code, c) := v_lt same same_u T k self other cell in
  placed w T k code ->
  tests w T k code (tmp (self :: svar other) [cell]) m [val self; cell] c
    (get m (val self) <? match other with SConst c => c | SVar o => get m (val o) end).
Proof. Q v_lt_ok. Qed.

Theorem C10_v_gt : forall k self other cell m,
  In self vars -> ordinary m self -> ord_src w m other ->
  (forall o, other = SVar o -> patchable w cell) ->
  (forall c, other = SConst c -> -1 <= c) ->
  let (code, c) := v_gt same same_u T k self other cell in
  placed w T k code ->
  tests w T k code (tmp (self :: svar other) [cell]) m [val self; cell] c
    (match other with SConst c => c | SVar o => get m (val o) end <? get m (val self)).
Proof. Q v_gt_ok. Qed.
End Operators.
Print Assumptions C07_v_assign.
Print Assumptions C07_v_iadd.
Print Assumptions C07_v_isub.
Print Assumptions C07_lv_assign.
Print Assumptions C07_lv_iadd.
Print Assumptions C07_lv_isub.
Print Assumptions C07_lv_ineg.
Print Assumptions C07_lv_iabs.
Print Assumptions C07_v_add.
Print Assumptions C07_v_radd.
Print Assumptions C07_v_sub.
Print Assumptions C07_v_rsub.
Print Assumptions C07_v_neg.
Print Assumptions C14_v_ior.
Print Assumptions C14_v_iand.
Print Assumptions C14_v_ixor.
Print Assumptions C14_lv_ior.
Print Assumptions C14_lv_iand.
Print Assumptions C14_lv_ixor.
Print Assumptions C14_lv_iinvert.
Print Assumptions C14_v_and.
Print Assumptions C14_v_or.
Print Assumptions C14_v_xor.
Print Assumptions C14_v_rxor.
Print Assumptions C14_v_invert.
Print Assumptions C14_f_bitnand.
Print Assumptions C14_f_bitnor.
Print Assumptions C14_f_bitnxor.
Print Assumptions C15_lv_ilshift.
Print Assumptions C15_lv_irshift.
Print Assumptions C10_v_eq.
Print Assumptions C10_v_ne.
Print Assumptions C10_v_cmp.
Print Assumptions C10_v_lt.
Print Assumptions C10_v_gt.

(* ---------- the hypotheses can be met ---------- *)
Definition ex_x := vb_var 1000 0.
Definition ex_y := vb_var 1000 1.
Definition ex_z := vb_var 1000 2.
Definition ex_ad := vb_var 1000 3.
Definition ex_m : mem := fun a =>
  if existsb (fun v => a =? vc v FMod) [ex_x; ex_y; ex_z; ex_ad] then w6 Add
  else if existsb (fun v => a =? vc v FMask) [ex_x; ex_y; ex_z; ex_ad] then 0xFFFFFFFF
  else if a =? vc ex_x FVal then 5 else if a =? vc ex_y FVal then 9 else 0.

Lemma ex_patchable code e : 100000 <= e < 2^28 -> patchable (exworld 4 code) e.
Proof.
  intros He. split; [split|].
  - split; rewrite u32_small by lia; [lia|]. unfold special. destruct (Z.eqb_spec e 12); [lia|].
    destruct (Z.leb_spec 14 e), (Z.leb_spec e 26); auto; lia.
  - reflexivity.
  - intros v f Hv. apply exvars_range in Hv; [|lia]. unfold vc, idx. destruct f; cbn [foff]; rewrite !Z.mod_small; lia.
Qed.

Example ex_operators : forall op, In op [v_and fresh_same user_same exT 0; v_or fresh_same user_same exT 0; v_xor fresh_same user_same exT 0;
    v_add fresh_same user_same exT 0; v_sub fresh_same user_same ex_ad exT 0; f_bitnand fresh_same user_same exT 0] ->
  let code := fst (op false false ex_x (SVar ex_y) ex_z) in
  world_ok (exworld 4 code) /\ placed (exworld 4 code) exT 0 code /\ In ex_x (exvars 4) /\
  ordinary ex_m ex_x /\ ord_src (exworld 4 code) ex_m (SVar ex_y) /\ In ex_z (exvars 4) /\ ex_z <> ex_x /\ ~ In ex_z (svar (SVar ex_y)) /\
  In ex_ad (exvars 4) /\ addor_ok ex_ad ex_m /\ ~ In ex_ad [ex_x; ex_z; ex_y] /\ ~ In ex_x [ex_y] /\
  (forall e, In e (code_masks exT 0 code) -> patchable (exworld 4 code) e).
Proof.
  intros op Hop code. split; [apply exworld_ok; reflexivity|].
  assert (Hl : Z.of_nat (length code) <= 10).
  { apply Z.leb_le. unfold code. clear code. cbn [In] in Hop. repeat (destruct Hop as [<-|Hop]; [vm_compute; reflexivity|]). destruct Hop. }
  split; [apply exworld_placed; lia|].
  split; [left; reflexivity|]. split; [split; vm_compute; reflexivity|].
  split; [split; [right; left; reflexivity|split; vm_compute; reflexivity]|].
  split; [right; right; left; reflexivity|]. split; [vm_compute; discriminate|].
  split; [intros [H|[]]; revert H; vm_compute; discriminate|]. split; [right; right; right; left; reflexivity|].
  split; [split; [split|]; vm_compute; reflexivity|].
  split; [intros [H|[H|[H|[]]]]; revert H; vm_compute; discriminate|].
  split; [intros [H|[]]; revert H; vm_compute; discriminate|].
  intros e He. apply ex_patchable. unfold code_masks in He. apply in_map_iff in He. destruct He as (j & <- & Hj).
  apply in_seq in Hj. unfold exT. lia.
Qed.
Example ex_light : valcell (exworld 4 []) (vc ex_x FVal) /\ valcell (exworld 4 []) 200000.
Proof.
  split.
  - apply valcell_val; [apply exworld_ok; reflexivity|left; reflexivity].
  - destruct (ex_patchable [] 200000 ltac:(lia)) as [H1 H2]. split; [exact H1|]. intros v f Hv _. apply H2. exact Hv.
Qed.

(* ---------- where the code is wrong ---------- *)
(* x -= x leaves 2^32 - 1 *)
Theorem C07_isub_same_variable_refuted :
  exists w m m' x addor T, let code := v_isub fresh_same user_same addor T 0 x (SVar x) in
    world_ok w /\ placed w T 0 code /\ In x (W_vars w) /\ ordinary m x /\ In addor (W_vars w) /\ addor_ok addor m /\
    runs w (lbl T 0, m) (lbl T (length code), m') /\
    get m (vc x FVal) - get m (vc x FVal) = 0 /\ get m' (vc x FVal) = 0xFFFFFFFF.
Proof.
  pose (code := v_isub fresh_same user_same ex_ad exT 0 ex_x (SVar ex_x)).
  destruct (ends_steps (W_P (exworld 4 code)) (W_prot (exworld 4 code)) 3 (lbl exT 0) ex_m [vc ex_x FVal] (lbl exT 1) [0xFFFFFFFF])
    as (m' & H & E); [vm_compute; reflexivity|].
  exists (exworld 4 code), ex_m, m', ex_x, ex_ad, exT. cbv zeta.
  split; [apply exworld_ok; reflexivity|]. split; [apply exworld_placed; vm_compute; reflexivity|].
  split; [left; reflexivity|]. split; [split; vm_compute; reflexivity|]. split; [right; right; right; left; reflexivity|].
  split; [split; [split|]; vm_compute; reflexivity|]. split; [exact H|]. split; [apply Z.sub_diag|]. injection E as E. exact E.
Qed.
Print Assumptions C07_isub_same_variable_refuted.
(* x ^ x gives x *)
Theorem C14_xor_same_variable_refuted :
  exists w m m' x t T, let code := fst (v_xor fresh_same user_same T 0 false false x (SVar x) t) in
    world_ok w /\ placed w T 0 code /\ In x (W_vars w) /\ ordinary m x /\ In t (W_vars w) /\ t <> x /\
    snd (v_xor fresh_same user_same T 0 false false x (SVar x) t) = t /\
    runs w (lbl T 0, m) (lbl T (length code), m') /\
    Z.lxor (get m (vc x FVal)) (get m (vc x FVal)) = 0 /\ get m' (vc t FVal) = 5.
Proof.
  pose (code := fst (v_xor fresh_same user_same exT 0 false false ex_x (SVar ex_x) ex_z)).
  destruct (ends_steps (W_P (exworld 4 code)) (W_prot (exworld 4 code)) 5 (lbl exT 0) ex_m [vc ex_z FVal] (lbl exT 3) [5])
    as (m' & H & E); [vm_compute; reflexivity|].
  exists (exworld 4 code), ex_m, m', ex_x, ex_z, exT. cbv zeta.
  split; [apply exworld_ok; reflexivity|]. split; [apply exworld_placed; vm_compute; reflexivity|].
  split; [left; reflexivity|]. split; [split; vm_compute; reflexivity|]. split; [right; right; left; reflexivity|].
  split; [vm_compute; discriminate|]. split; [reflexivity|].
  split; [exact H|]. split; [apply Z.lxor_nilpotent|]. injection E as E. exact E.
Qed.
Print Assumptions C14_xor_same_variable_refuted.

(* light variables: x < 0 and x > 0xFFFFFFFF are always true *)
Theorem C10_light_lt_zero_refuted : forall w m a, writable w a -> conds_are m [lv_lt a 0] true.
Proof.
  intros w m a [Ha _]. pose proof (get_range m a). replace true with (do_cmp AtMost (get m a) (u32 (0 - 1))); [apply conds_one_M; exact Ha|].
  cbn [do_cmp]. change (u32 (0 - 1)) with 4294967295. lia.
Qed.
Theorem C10_light_gt_max_refuted : forall w m a, writable w a -> conds_are m [lv_gt a 0xFFFFFFFF] true.
Proof.
  intros w m a [Ha _]. pose proof (get_range m a). replace true with (do_cmp AtLeast (get m a) (u32 (0xFFFFFFFF + 1))); [apply conds_one_M; exact Ha|].
  cbn [do_cmp]. change (u32 (4294967295 + 1)) with 0. lia.
Qed.
Print Assumptions C10_light_lt_zero_refuted.
Print Assumptions C10_light_gt_max_refuted.
(* variables: constants above 2^32 (for <) and below -1 (for >) are compared modulo 2^32 *)
Theorem C10_lt_large_constant_refuted : exists m w x c d, In x (W_vars w) /\ world_ok w /\
  v_lt fresh_same user_same exT 0 x (SConst c) 0 = ([], d) /\ get m (vc x FVal) < c /\ conds_are m [d] false.
Proof.
  exists ex_m, (exworld 4 []), ex_x, (2^32 + 5), (CondM (vc ex_x FVal) AtMost (2^32 + 4)).
  split; [left; reflexivity|]. split; [apply exworld_ok; reflexivity|]. split; [reflexivity|]. split; [reflexivity|].
  change false with (do_cmp AtMost (get ex_m (vc ex_x FVal)) (u32 (2^32 + 4))).
  apply conds_one_M. apply (wo_plain _ (exworld_ok 4 [] eq_refl)). left. reflexivity.
Qed.
Print Assumptions C10_lt_large_constant_refuted.
(* light comparisons with constants in range *)
Theorem C10_light : forall w m a c, writable w a -> 0 <= c < 2^32 ->
  conds_are m [lv_eq a c] (get m a =? c) /\ conds_are m [lv_le a c] (get m a <=? c) /\ conds_are m [lv_ge a c] (c <=? get m a) /\
  (1 <= c -> conds_are m [lv_lt a c] (get m a <? c)) /\ (c < 2^32 - 1 -> conds_are m [lv_gt a c] (c <? get m a)) /\
  (forall d, lv_ne a c = Some d -> conds_are m [d] (negb (get m a =? c))).
Proof.
  intros w m a c [Ha _] Hc. pose proof (lv_eq_ok m a Ha c) as H1. pose proof (lv_le_ok m a Ha c) as H2. pose proof (lv_ge_ok m a Ha c) as H3.
  rewrite (u32_small c) in H1, H2, H3 by lia. repeat (split; [assumption|]).
  split; [intros; apply lv_lt_ok; auto; lia|]. split; [intros; apply lv_gt_ok; auto; lia|].
  intros d Hd. rewrite <- (u32_small c) by lia. apply lv_ne_ok; auto.
Qed.
Print Assumptions C10_light.
(* x <<= 0 would need a trigger with 65 actions; other shifts fit *)
Theorem C15_shift_sizes : forall a n, 1 <= n -> (length (ilshift_acts a n) <= 64)%nat /\ (length (irshift_acts a n) <= 64)%nat.
Proof. intros a n Hn. split; [apply ilshift_fits; exact Hn|apply irshift_fits; lia]. Qed.
Theorem C15_shift_zero_refuted : forall a, length (ilshift_acts a 0) = 65%nat.
Proof. exact ilshift_zero. Qed.
Print Assumptions C15_shift_sizes.
Print Assumptions C15_shift_zero_refuted.
