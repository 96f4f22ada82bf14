(* C83: the map from lines of a compiled epScript module to lines of its source. *)
From Coq Require Import ZArith List Bool Lia.
From Verif Require Import LmapModel.
Import ListNotations.
Open Scope Z_scope.

(* ---------- specification ---------- *)
(* the number written by decimal digits *)
Definition decimal (ds : list Z) : Z := fold_left (fun v d => 10 * v + (d - 48)) ds 0.
(* a line "   # (Line n) text" *)
Definition marks (l : list Z) (n : Z) : Prop := exists sp ds rest,
  l = sp ++ [35; 32; 40; 76; 105; 110; 101; 32] ++ ds ++ [41; 32] ++ rest /\ Forall (fun b => b = 32) sp /\ Forall (fun b => 48 <= b <= 57) ds /\ ds <> [] /\ rest <> [] /\ n = decimal ds.
(* text made of lines, each ended by LF or CR LF, the last one not ended *)
Fixpoint text (ls : list (list Z * bool)) (last : list Z) : list Z :=
  match ls with
  | [] => last
  | (l, crlf) :: r => l ++ (if crlf : bool then [13; 10] else [10]) ++ text r last
  end.
Definition plain (l : list Z) : Prop := ~ In 10 l /\ forall x, l <> x ++ [13].

(* ================= proofs ================= *)
Lemma skip_app sp r : Forall (fun b => b = 32) sp -> skip_spaces (sp ++ r) = skip_spaces r.
Proof. induction 1 as [|b sp -> _ IH]; [reflexivity|]. exact IH. Qed.
Lemma skip_inv : forall l, exists sp, l = sp ++ skip_spaces l /\ Forall (fun b => b = 32) sp.
Proof.
  induction l as [|b l (sp & E & F)]; [exists []; split; [reflexivity|constructor]|]. cbn [skip_spaces].
  destruct (Z.eqb_spec b 32) as [->|N].
  - exists (32 :: sp). cbn [app]. rewrite <- E. split; [reflexivity|]. constructor; [reflexivity|exact F].
  - exists []. split; [reflexivity|constructor].
Qed.
Lemma strip_ok : forall p l r, strip p l = Some r <-> l = p ++ r.
Proof.
  induction p as [|a p IH]; intros l r; cbn [strip app]; [split; [injection 1 as ->; reflexivity|intros ->; reflexivity]|].
  destruct l as [|b l]; [split; discriminate|]. destruct (Z.eqb_spec a b) as [->|N]; [rewrite IH; split; [intros ->; reflexivity|injection 1; tauto]|]. split; [discriminate|]. injection 1. congruence.
Qed.
Definition isd (b : Z) : bool := (48 <=? b) && (b <=? 57).
Lemma isd_iff b : isd b = true <-> 48 <= b <= 57.
Proof. unfold isd. rewrite andb_true_iff, !Z.leb_le. tauto. Qed.
Lemma digits_app : forall ds acc s c r, Forall (fun b => 48 <= b <= 57) ds -> (ds <> [] \/ s = true) -> isd c = false ->
  digits acc s (ds ++ c :: r) = Some (fold_left (fun v d => 10 * v + (d - 48)) ds acc, c :: r).
Proof.
  induction ds as [|b ds IH]; intros acc s c r F NE Hc; cbn [app digits fold_left].
  - unfold isd in Hc. rewrite Hc. destruct NE as [NE| ->]; [congruence|reflexivity].
  - inversion F as [|? ? Hb F' E1]; subst. apply isd_iff in Hb. unfold isd in Hb. rewrite Hb. apply IH; auto.
Qed.
Lemma digits_inv : forall l acc s n r, digits acc s l = Some (n, r) -> exists ds, l = ds ++ r /\ Forall (fun b => 48 <= b <= 57) ds /\ (ds <> [] \/ s = true) /\ n = fold_left (fun v d => 10 * v + (d - 48)) ds acc.
Proof.
  induction l as [|b l IH]; intros acc s n r H; cbn [digits] in H.
  - destruct s; [|discriminate]. injection H as <- <-. exists []. repeat split; auto.
  - fold (isd b) in H. destruct (isd b) eqn:E.
    + destruct (IH _ _ _ _ H) as (ds & -> & F & _ & ->). exists (b :: ds). repeat split; [constructor; [apply isd_iff, E|exact F]|left; discriminate].
    + destruct s; [|discriminate]. injection H as <- <-. exists []. repeat split; auto.
Qed.
(* C83: the marks found are exactly the comments "# (Line n) text" *)
Theorem C83_mark l n : match_line l = Some n <-> marks l n.
Proof.
  unfold match_line, marks. split.
  - destruct (skip_inv l) as (sp & E & F). destruct (strip _ (skip_spaces l)) as [r|] eqn:E1; [|discriminate]. apply strip_ok in E1.
    destruct (digits 0 false r) as [[m r']|] eqn:E2; [|discriminate]. destruct (digits_inv _ _ _ _ _ E2) as (ds & -> & FD & NE & ->).
    destruct (strip [41; 32] r') as [[|c t]|] eqn:E3; try discriminate. apply strip_ok in E3. subst r'. injection 1 as <-. exists sp, ds, (c :: t). rewrite E1 in E.
    repeat split; auto; [|discriminate]. destruct NE; [assumption|discriminate].
  - intros (sp & ds & rest & -> & F & FD & NE & NR & ->). rewrite skip_app by exact F. cbn [app]. cbn [skip_spaces]. change (35 =? 32) with false. cbv iota.
    match goal with |- context [strip ?p ?x] => replace (strip p x) with (Some (ds ++ 41 :: 32 :: rest)) by (symmetry; apply strip_ok; reflexivity) end.
    rewrite digits_app by (auto; reflexivity). replace (strip [41; 32] (41 :: 32 :: rest)) with (Some rest) by (symmetry; apply strip_ok; reflexivity). destruct rest; [congruence|]. reflexivity.
Qed.
Print Assumptions C83_mark.

Lemma decimal_nonneg ds : Forall (fun b => 48 <= b <= 57) ds -> 0 <= decimal ds.
Proof.
  unfold decimal. assert (G : forall l a, Forall (fun b => 48 <= b <= 57) l -> 0 <= a -> 0 <= fold_left (fun v d => 10 * v + (d - 48)) l a); [|intros; apply G; [assumption|lia]].
  induction l as [|b l IH]; intros a F Ha; [exact Ha|]. cbn [fold_left]. inversion F; subst. apply IH; [assumption|lia].
Qed.
Lemma replace_crlf_line : forall l t, ~ In 10 l -> replace_crlf (l ++ 13 :: 10 :: t) = l ++ 10 :: replace_crlf t.
Proof.
  induction l as [|b l IH]; intros t N; [reflexivity|]. assert (N' : ~ In 10 l) by (intros X; apply N; right; exact X). specialize (IH t N'). destruct l as [|c l]; cbn [app] in *.
  - cbn [replace_crlf]. cbn [replace_crlf] in IH. change (13 =? 10) with false. rewrite andb_false_r. rewrite IH. reflexivity.
  - cbn [replace_crlf]. replace (c =? 10) with false by (symmetry; apply Z.eqb_neq; intros ->; apply N'; left; reflexivity). rewrite andb_false_r. f_equal. exact IH.
Qed.
Lemma replace_lf_line : forall l t, plain l -> replace_crlf (l ++ 10 :: t) = l ++ 10 :: replace_crlf t.
Proof.
  induction l as [|b l IH]; intros t (N & P).
  - cbn [app replace_crlf]. destruct t; reflexivity.
  - assert (N' : ~ In 10 l) by (intros X; apply N; right; exact X). assert (P' : forall x, l <> x ++ [13]) by (intros x ->; apply (P (b :: x)); reflexivity).
    specialize (IH t (conj N' P')). destruct l as [|c l]; cbn [app] in *.
    + cbn [replace_crlf]. cbn [replace_crlf] in IH. replace (b =? 13) with false by (symmetry; apply Z.eqb_neq; intros ->; apply (P []); reflexivity). cbn [andb]. rewrite IH. reflexivity.
    + cbn [replace_crlf]. replace (c =? 10) with false by (symmetry; apply Z.eqb_neq; intros ->; apply N'; left; reflexivity). rewrite andb_false_r. f_equal. exact IH.
Qed.
Lemma replace_last : forall l, ~ In 10 l -> replace_crlf l = l.
Proof.
  induction l as [|b l IH]; intros N; [reflexivity|]. assert (N' : ~ In 10 l) by (intros X; apply N; right; exact X). specialize (IH N'). destruct l as [|c l]; [reflexivity|].
  cbn [replace_crlf]. replace (c =? 10) with false by (symmetry; apply Z.eqb_neq; intros ->; apply N'; left; reflexivity). rewrite andb_false_r. f_equal. exact IH.
Qed.
Lemma split_line : forall l t, ~ In 10 l -> split_lf (l ++ 10 :: t) = l :: split_lf t.
Proof.
  induction l as [|b l IH]; intros t N; [reflexivity|]. cbn [app split_lf]. replace (b =? 10) with false by (symmetry; apply Z.eqb_neq; intros ->; apply N; left; reflexivity).
  rewrite IH by (intros X; apply N; right; exact X). reflexivity.
Qed.
Lemma split_last : forall l, ~ In 10 l -> split_lf l = [l].
Proof.
  induction l as [|b l IH]; intros N; [reflexivity|]. cbn [split_lf]. replace (b =? 10) with false by (symmetry; apply Z.eqb_neq; intros ->; apply N; left; reflexivity).
  rewrite IH by (intros X; apply N; right; exact X). reflexivity.
Qed.
Lemma split_text : forall ls last, Forall (fun x => plain (fst x)) ls -> ~ In 10 last -> split_lf (replace_crlf (text ls last)) = map fst ls ++ [last].
Proof.
  induction ls as [|[l c] r IH]; intros last F N; cbn [text map fst app].
  - rewrite replace_last by exact N. apply split_last, N.
  - inversion F as [|? ? P F']; subst. cbn [fst] in P. destruct c; cbn [app].
    + rewrite replace_crlf_line by apply P. rewrite split_line by apply P. f_equal. apply IH; assumption.
    + rewrite replace_lf_line by exact P. rewrite split_line by apply P. f_equal. apply IH; assumption.
Qed.
(* the marks with their lines *)
Fixpoint found (lineno : Z) (ls : list (list Z)) : list (Z * Z) :=
  match ls with
  | [] => []
  | l :: r => match match_line l with Some n => (lineno + 1, n) :: found (lineno + 1) r | None => found (lineno + 1) r end
  end.
Lemma scan_ok : forall ls k a b, scan k ls a b = (a ++ map fst (found k ls), b ++ map snd (found k ls)).
Proof.
  induction ls as [|l r IH]; intros k a b; cbn [scan found map]; [rewrite !app_nil_r; reflexivity|]. destruct (match_line l); rewrite IH; [|reflexivity]. cbn [map fst snd]. rewrite <- !app_assoc. reflexivity.
Qed.
Lemma found_in : forall ls k p v, In (p, v) (found k ls) <-> exists i, (i < length ls)%nat /\ p = k + Z.of_nat i + 1 /\ match_line (nth i ls []) = Some v.
Proof.
  induction ls as [|l r IH]; intros k p v; cbn [found length].
  - split; [intros []|]. intros (i & H & _). lia.
  - assert (R : In (p, v) (found (k + 1) r) <-> exists i, (0 < i < S (length r))%nat /\ p = k + Z.of_nat i + 1 /\ match_line (nth i (l :: r) []) = Some v).
    { rewrite IH. split.
      - intros (i & H1 & H2 & H3). exists (S i). split; [lia|]. split; [lia|exact H3].
      - intros (i & H1 & H2 & H3). destruct i as [|i]; [lia|]. exists i. split; [lia|]. split; [lia|exact H3]. }
    destruct (match_line l) as [n|] eqn:E.
    + cbn [In]. rewrite R. split.
      * intros [X|(i & H1 & H2)]; [injection X as <- <-; exists 0%nat; split; [lia|]; split; [lia|exact E]|exists i; split; [lia|exact H2]].
      * intros (i & H1 & H2 & H3). destruct i as [|i]; [left; cbn [nth] in H3; rewrite E in H3; injection H3 as ->; f_equal; lia|right; exists (S i); split; [lia|tauto]].
    + rewrite R. split; intros (i & H1 & H2 & H3); exists i; (split; [|tauto]); [lia|]. destruct i; [cbn [nth] in H3; congruence|lia].
Qed.
Lemma found_sorted : forall ls k i j, (i < j < length (found k ls))%nat -> fst (nth i (found k ls) (0, 0)) < fst (nth j (found k ls) (0, 0)).
Proof.
  induction ls as [|l r IH]; intros k i j H; cbn [found] in *; [cbn in H; lia|]. destruct (match_line l) as [n|]; [|apply IH, H]. cbn [length] in H. destruct j as [|j]; [lia|]. destruct i as [|i]; cbn [nth]; [|apply IH; lia].
  cbn [fst]. assert (X : In (nth j (found (k + 1) r) (0, 0)) (found (k + 1) r)) by (apply nth_In; lia). destruct (nth j (found (k + 1) r) (0, 0)) as [p v]. apply found_in in X. destruct X as (t & _ & -> & _). cbn [fst]. lia.
Qed.
Lemma bisect_ok a x : (forall i j, (i < j < length a)%nat -> nth i a 0 < nth j a 0) -> forall f lo hi, (lo <= hi <= length a)%nat -> (hi - lo <= f)%nat ->
  (forall i, (i < lo)%nat -> nth i a 0 <= x) -> (forall i, (hi <= i < length a)%nat -> x < nth i a 0) ->
  let c := bisect_loop f a x lo hi in (lo <= c <= hi)%nat /\ (forall i, (i < c)%nat -> nth i a 0 <= x) /\ (forall i, (c <= i < length a)%nat -> x < nth i a 0).
Proof.
  intros HS. induction f as [|f IH]; intros lo hi H1 H2 L R; cbn [bisect_loop].
  - cbv zeta. split; [lia|]. split; [exact L|]. intros i Hi. apply R. lia.
  - destruct (Nat.ltb_spec lo hi) as [B|B]; [|cbv zeta; split; [lia|]; split; [exact L|]; intros i Hi; apply R; lia]. cbv zeta.
    pose proof (Nat.div_mod (lo + hi) 2 ltac:(lia)) as D. pose proof (Nat.mod_upper_bound (lo + hi) 2 ltac:(lia)) as U. set (mid := ((lo + hi) / 2)%nat) in *. assert (M : (lo <= mid < hi)%nat) by lia.
    destruct (Z.ltb_spec x (nth mid a 0)) as [C|C].
    + destruct (IH lo mid ltac:(lia) ltac:(lia) L) as (A1 & A2); [|split; [lia|exact A2]]. intros i Hi. destruct (Nat.eq_dec i mid) as [->|]; [exact C|]. specialize (HS mid i ltac:(lia)). lia.
    + destruct (IH (mid + 1)%nat hi ltac:(lia) ltac:(lia)) as (A1 & A2); [|exact R|split; [lia|exact A2]]. intros i Hi. destruct (Nat.eq_dec i mid) as [->|]; [exact C|]. specialize (HS i mid ltac:(lia)). lia.
Qed.
(* C83: a line is mapped to the number of the last mark at or above it, to 0 if there is none *)
Theorem C83_map ls last k : Forall (fun x => plain (fst x)) ls -> ~ In 10 last -> 0 <= k -> let L := map fst ls ++ [last] in
  (forall i n, (i < length L)%nat -> Z.of_nat i + 1 <= k -> marks (nth i L []) n -> (forall j m, (i < j < length L)%nat -> Z.of_nat j + 1 <= k -> ~ marks (nth j L []) m) ->
    line_mapper (text ls last) k = n) /\
  ((forall j m, (j < length L)%nat -> Z.of_nat j + 1 <= k -> ~ marks (nth j L []) m) -> line_mapper (text ls last) k = 0).
Proof.
  intros HF HN Hk L. unfold line_mapper. rewrite split_text by assumption. fold L. rewrite scan_ok. set (F := found 0 L). cbn [app].
  change (0 :: map fst F) with (map fst ((0, 0) :: F)). change (0 :: map snd F) with (map snd ((0, 0) :: F)). set (PL := (0, 0) :: F).
  assert (NF : forall i, nth i (map fst PL) 0 = fst (nth i PL (0, 0))) by (intros i; exact (map_nth fst PL (0, 0) i)).
  assert (FI : forall p v, In (p, v) F <-> exists i, (i < length L)%nat /\ p = Z.of_nat i + 1 /\ marks (nth i L []) v).
  { intros p v. unfold F. rewrite found_in. split; intros (i & H1 & H2 & H3); exists i; (split; [exact H1|]); (split; [lia|]); apply C83_mark; exact H3. }
  assert (HS : forall i j, (i < j < length PL)%nat -> fst (nth i PL (0, 0)) < fst (nth j PL (0, 0))).
  { intros i j H. unfold PL in *. cbn [length] in H. destruct j as [|j]; [lia|]. destruct i as [|i]; cbn [nth]; [|apply found_sorted; fold F; lia].
    assert (X : In (nth j F (0, 0)) F) by (apply nth_In; lia). destruct (nth j F (0, 0)) as [p v]. apply FI in X. destruct X as (t & _ & -> & _). cbn [fst]. lia. }
  assert (B : let c := bisect_right (map fst PL) k in (0 <= c <= length (map fst PL))%nat /\ (forall i, (i < c)%nat -> nth i (map fst PL) 0 <= k) /\ (forall i, (c <= i < length (map fst PL))%nat -> k < nth i (map fst PL) 0)).
  { unfold bisect_right. apply bisect_ok; [|lia|lia|intros; lia|intros; lia]. intros i j H. rewrite map_length in H. rewrite !NF. apply HS, H. }
  cbv zeta in B. set (c := bisect_right (map fst PL) k) in *. rewrite map_length in B. destruct B as (B1 & B2 & B3).
  assert (C0 : (0 < c)%nat). { destruct c as [|c]; [|lia]. specialize (B3 0%nat). rewrite NF in B3. cbn [PL nth fst] in B3. specialize (B3 ltac:(unfold PL; cbn [length]; lia)). lia. }
  assert (E : nth (c - 1) (map snd PL) 0 = snd (nth (c - 1) PL (0, 0))) by exact (map_nth snd PL (0, 0) (c - 1)). rewrite E. clear E.
  assert (Q : nth (c - 1) PL (0, 0) = (0, 0) /\ c = 1%nat \/ In (nth (c - 1) PL (0, 0)) F).
  { destruct (Nat.eq_dec c 1) as [->|]; [left; split; reflexivity|right]. unfold PL in *. cbn [length] in B1. destruct c as [|[|c]]; [lia|lia|]. cbn [Nat.sub nth]. apply nth_In. lia. }
  assert (QK : fst (nth (c - 1) PL (0, 0)) <= k) by (rewrite <- NF; apply B2; lia).
  split.
  - intros i n Hi Hik Hm HL. assert (X : In (Z.of_nat i + 1, n) F) by (apply FI; exists i; auto). assert (X' : In (Z.of_nat i + 1, n) PL) by (right; exact X). destruct (In_nth _ _ (0, 0) X') as (t & T1 & T2).
    assert (N0 : 0 <= n) by (destruct Hm as (sp & ds & rest & _ & _ & FD & _ & _ & ->); apply decimal_nonneg, FD).
    assert (TC : (t < c)%nat). { destruct (Nat.lt_ge_cases t c) as [|G]; [assumption|]. specialize (B3 t ltac:(lia)). rewrite NF, T2 in B3. cbn [fst] in B3. lia. }
    assert (TE : t = (c - 1)%nat). { destruct (Nat.eq_dec t (c - 1)) as [|NE]; [assumption|exfalso]. pose proof (HS t (c - 1)%nat ltac:(lia)) as O. rewrite T2 in O. destruct Q as [[_ Q]|Q]; [lia|].
      destruct (nth (c - 1) PL (0, 0)) as [p v]. cbn [fst] in *. apply FI in Q. destruct Q as (j & J1 & J2 & J3). apply (HL j v ltac:(lia) ltac:(lia) J3). }
    rewrite <- TE, T2. cbn [snd]. destruct (negb (k =? 0)); lia.
  - intros HL. destruct Q as [[-> _]|Q]; [cbn [snd]; destruct (negb (k =? 0)); reflexivity|]. exfalso. destruct (nth (c - 1) PL (0, 0)) as [p v]. cbn [fst] in *. apply FI in Q. destruct Q as (j & J1 & J2 & J3). apply (HL j v J1 ltac:(lia) J3).
Qed.
Print Assumptions C83_map.
(* ---------- a concrete case: "x", "  # (Line 12) y", "z" ---------- *)
Definition exl : list (list Z * bool) := [([120], true); ([32; 32; 35; 32; 40; 76; 105; 110; 101; 32; 49; 50; 41; 32; 121], false)].
Example ex_lmap : Forall (fun x => plain (fst x)) exl /\ marks (nth 1 (map fst exl ++ [[122]]) []) 12 /\ map (line_mapper (text exl [122])) [0; 1; 2; 3] = [0; 0; 12; 12].
Proof.
  split; [|split; [apply C83_mark; reflexivity|reflexivity]]. repeat constructor; cbn; try lia; intros x H; apply (f_equal (@rev Z)) in H; rewrite rev_app_distr in H; discriminate.
Qed.
