(* C48, C56: moving map triggers to the payload; the size estimate. *)
From Coq Require Import ZArith List Bool Lia ZifyBool ZifyNat.
From Verif Require Import Word PackModel.
Import ListNotations.
Open Scope Z_scope.

(* ---------- specification ---------- *)
(* what a player executes: a map trigger or a piece of inline code *)
Inductive event := ERaw (t : bytes) | ECode (d : bytes).
(* e i: the byte for group i of the trigger's player list is set *)
Definition runs_for (force : Z -> Z) (e : Z -> bool) (p : Z) : bool := e 17 || e p || e (18 + force p).

(* the source map, segment by segment *)
Definition src_event (force : Z -> Z) (p : Z) (t : bytes) : list event :=
  match inline_player_code t with
  | Some pc => if runs_for force (Z.testbit pc) p then [ECode (code_data t)] else []
  | None => if runs_for force (eff t) p then [ERaw t] else []
  end.
Definition src_events force (l : list bytes) p := flat_map (src_event force p) l.

(* the converted map: a trigger whose flags are 0x10000000 stands for the function
   with the number in its first dword (inj_finalizer.py 46-64, 147-157) *)
Definition func_events (force : Z -> Z) (f : func) (p : Z) : list event :=
  match f with
  | FTrigs l => map ERaw l
  | FCode d => [ECode d]
  | FOne t => match one_runs force t p with Some n => repeat (ERaw t) n | None => [] end
  end.
Definition lookup (cs : codes) (id : Z) : option func :=
  match find (fun c => fst c =? id) cs with Some (_, f) => Some f | None => None end.
Definition out_event (force : Z -> Z) (cs : codes) (p : Z) (t : bytes) : list event :=
  if runs_for force (eff t) p then
    if flags t =? 0x10000000 then match lookup cs (dword t 0) with Some f => func_events force f p | None => [] end
    else [ERaw t]
  else [].
Definition out_events force cs (l : list bytes) p := flat_map (out_event force cs p) l.
Definition is_raw (e : event) : bool := match e with ERaw _ => true | ECode _ => false end.
Definition is_code (e : event) : bool := negb (is_raw e).

(* ---------- proof ---------- *)
Lemma bat_map f i : 0 <= i < 2400 -> bat (map (fun k => f (Z.of_nat k)) (seq 0 seg_len)) i = f i.
Proof.
  intros H. unfold bat, seg_len.
  rewrite (nth_indep _ 0 (f (Z.of_nat 0))) by (rewrite map_length, seq_length; lia).
  rewrite (map_nth (fun k => f (Z.of_nat k))). rewrite seq_nth by lia. f_equal. lia.
Qed.
Lemma nt_byte id pc i : 0 <= i < 2400 -> bat (new_trigger id pc) i = disp_byte id pc i.
Proof. intros. unfold new_trigger. apply bat_map. auto. Qed.
Lemma nt_flags id pc : flags (new_trigger id pc) = 0x10000000.
Proof. unfold flags, dword. rewrite !nt_byte by lia. reflexivity. Qed.
Lemma nt_eff id pc i : 0 <= i < 27 -> eff (new_trigger id pc) i = Z.testbit pc i.
Proof.
  intros H. unfold eff. rewrite nt_byte by lia. unfold disp_byte.
  destruct (Z.ltb_spec (320 + 2048 + 4 + i) 4); [lia|].
  destruct (Z.leb_spec 320 (320 + 2048 + 4 + i)); [|lia]. destruct (Z.ltb_spec (320 + 2048 + 4 + i) (320 + 32 * 4)); [lia|]. cbn [andb].
  destruct (Z.eqb_spec (320 + 2048 + 4 + i) 2371); [lia|].
  destruct (Z.leb_spec 2372 (320 + 2048 + 4 + i)); [|lia]. destruct (Z.ltb_spec (320 + 2048 + 4 + i) (2372 + 27)); [|lia]. cbn [andb].
  replace (320 + 2048 + 4 + i - 2372) with i by lia. destruct (Z.testbit pc i); reflexivity.
Qed.
Lemma nt_id id pc : 0 <= id < 2^32 -> dword (new_trigger id pc) 0 = id.
Proof.
  intros H. unfold dword. rewrite !nt_byte by lia.
  change (disp_byte id pc 0) with (Z.land (Z.shiftr id 0) 0xFF). change (disp_byte id pc (0 + 1)) with (Z.land (Z.shiftr id 8) 0xFF).
  change (disp_byte id pc (0 + 2)) with (Z.land (Z.shiftr id 16) 0xFF). change (disp_byte id pc (0 + 3)) with (Z.land (Z.shiftr id 24) 0xFF).
  change 0xFF with (Z.ones 8). rewrite !Z.land_ones, !Z.shiftr_div_pow2 by lia.
  change (2^0) with 1. change (2^8) with 256. change (2^16) with 65536. change (2^24) with 16777216. change (2^32) with 4294967296 in H.
  Z.div_mod_to_equations. lia.
Qed.

Section Order.
Variables (cut : Z -> Z -> bool) (force : Z -> Z).
Hypothesis Hforce : forall p, 0 <= force p <= 3.

Lemma runs_for_nt id pc p : 0 <= p <= 7 -> runs_for force (eff (new_trigger id pc)) p = runs_for force (Z.testbit pc) p.
Proof. intros Hp. pose proof (Hforce p). unfold runs_for. rewrite !nt_eff by lia. reflexivity. Qed.
Lemma gep_runs t p : get_executing_players force t p = runs_for force (eff t) p.
Proof. unfold get_executing_players, runs_for. destruct (eff t 17); reflexivity. Qed.
Lemma runs_for_bit q p : 0 <= q <= 7 -> 0 <= p <= 7 -> runs_for force (Z.testbit (Z.shiftl 1 q)) p = (q =? p).
Proof.
  intros Hq Hp. pose proof (Hforce p). unfold runs_for. rewrite Z.shiftl_1_l.
  rewrite !Z.pow2_bits_eqb by lia. lia.
Qed.

(* numbering of functions *)
Definition ids_ok (cs : codes) : Prop := forall i c, nth_error cs i = Some c -> fst c = Z.of_nat i + 1024.
Definition fits (cs : codes) : Prop := Z.of_nat (length cs) + 1024 <= 2^32.
Lemma ids_app cs f : ids_ok cs -> ids_ok (cs ++ [(Z.of_nat (length cs) + 1024, f)]).
Proof.
  intros H i c Hc. destruct (lt_eq_lt_dec i (length cs)) as [[L|L]|L].
  - rewrite nth_error_app1 in Hc by auto. eauto.
  - subst i. rewrite nth_error_app2, Nat.sub_diag in Hc by lia. injection Hc as <-. reflexivity.
  - exfalso. assert (nth_error (cs ++ [(Z.of_nat (length cs) + 1024, f)]) i <> None) as Q by congruence.
    apply nth_error_Some in Q. rewrite app_length in Q. cbn [length] in Q. lia.
Qed.
Lemma lookup_keep cs x id f : lookup cs id = Some f -> lookup (cs ++ [x]) id = Some f.
Proof.
  unfold lookup. induction cs as [|c cs IH]; [discriminate|]. cbn [find app]. destruct (fst c =? id); auto.
Qed.
Lemma lookup_new cs f : ids_ok cs -> lookup (cs ++ [(Z.of_nat (length cs) + 1024, f)]) (Z.of_nat (length cs) + 1024) = Some f.
Proof.
  intros H. unfold lookup.
  assert (G : forall cs' n, (forall i c, nth_error cs' i = Some c -> fst c = Z.of_nat (n + i) + 1024) ->
     find (fun c => fst c =? Z.of_nat (n + length cs') + 1024) (cs' ++ [(Z.of_nat (n + length cs') + 1024, f)]) = Some (Z.of_nat (n + length cs') + 1024, f)).
  { induction cs' as [|c cs' IH]; intros n Hn; cbn [find app length fst].
    - rewrite Z.eqb_refl. reflexivity.
    - pose proof (Hn 0%nat c eq_refl) as Q. destruct (Z.eqb_spec (fst c) (Z.of_nat (n + S (length cs')) + 1024)); [lia|].
      replace (n + S (length cs'))%nat with (S n + length cs')%nat by lia. apply IH. intros i d Hd.
      replace (S n + i)%nat with (n + S i)%nat by lia. apply Hn. exact Hd. }
  specialize (G cs 0%nat H). rewrite Nat.add_0_l in G. rewrite G. reflexivity.
Qed.

(* segments whose meaning is settled *)
Definition settled (cs : codes) (t : bytes) : Prop := flags t <> 0x10000000 \/ exists f, lookup cs (dword t 0) = Some f.
Lemma out_keep cs x l p : Forall (settled cs) l -> out_events force (cs ++ [x]) l p = out_events force cs l p.
Proof.
  induction 1 as [|t l H Hl IH]; [reflexivity|]. unfold out_events in *. cbn [flat_map]. rewrite IH. f_equal.
  unfold out_event. destruct (runs_for force (eff t) p); [|reflexivity].
  destruct (Z.eqb_spec (flags t) 0x10000000) as [E|E]; [|reflexivity].
  destruct H as [H|[f H]]; [contradiction|]. rewrite (lookup_keep _ _ _ _ H), H. reflexivity.
Qed.
Lemma settled_keep cs x l : Forall (settled cs) l -> Forall (settled (cs ++ [x])) l.
Proof. apply Forall_impl. intros t [H|[f H]]; [left; auto|right]. exists f. apply lookup_keep. auto. Qed.

Record good (s : st) : Prop := mkgood { g_ids : ids_ok (s_codes s); g_set : Forall (settled (s_codes s)) (s_segs s) }.
Definition out (s : st) p := out_events force (s_codes s) (s_segs s) p.

Lemma out_app cs l t p : out_events force cs (l ++ [t]) p = out_events force cs l p ++ out_event force cs p t.
Proof. unfold out_events. rewrite flat_map_app. cbn [flat_map]. rewrite app_nil_r. reflexivity. Qed.

(* adding a dispatcher *)
Lemma add_dispatcher s f pc q : good s -> fits (s_codes s ++ [(Z.of_nat (length (s_codes s)) + 1024, f)]) ->
  let s' := mkst (s_codes s ++ [(Z.of_nat (length (s_codes s)) + 1024, f)])
                 (s_segs s ++ [new_trigger (Z.of_nat (length (s_codes s)) + 1024) pc]) q in
  good s' /\ forall p, 0 <= p <= 7 -> out s' p = out s p ++ (if runs_for force (Z.testbit pc) p then func_events force f p else []).
Proof.
  intros [G1 G2] Hf s'. unfold fits in Hf. rewrite app_length in Hf. cbn [length] in Hf.
  assert (Hid : 0 <= Z.of_nat (length (s_codes s)) + 1024 < 2^32) by lia.
  assert (L := lookup_new _ f G1). split.
  - split; cbn [s_codes s_segs s'].
    + apply ids_app. auto.
    + apply Forall_app. split; [apply settled_keep; auto|]. constructor; [|constructor].
      right. exists f. rewrite nt_id by auto. exact L.
  - intros p Hp. unfold out. cbn [s_codes s_segs s']. rewrite out_app, out_keep by auto. f_equal.
    unfold out_event. rewrite runs_for_nt by auto. rewrite nt_flags, nt_id by auto. rewrite Z.eqb_refl, L. reflexivity.
Qed.

Lemma append_len s p : (length (s_codes s) <= length (s_codes (append_ptriggers s p)))%nat.
Proof. unfold append_ptriggers. destruct (s_q s p); cbn [create_dispatcher s_codes]; rewrite ?app_length; lia. Qed.
Lemma append_spec s q : good s -> 0 <= q <= 7 -> fits (s_codes (append_ptriggers s q)) ->
  let s' := append_ptriggers s q in
  good s' /\ (forall p, s_q s' p = if p =? q then [] else s_q s p) /\
  forall p, 0 <= p <= 7 -> out s' p = out s p ++ (if p =? q then map ERaw (s_q s p) else []).
Proof.
  intros G Hq Hf s'. unfold s', append_ptriggers in *. destruct (s_q s q) as [|a l] eqn:E.
  - split; [auto|]. split.
    + intros p. destruct (Z.eqb_spec p q) as [->|]; auto.
    + intros p Hp. destruct (Z.eqb_spec p q) as [->|]; [rewrite E|]; cbn [map]; rewrite app_nil_r; reflexivity.
  - unfold create_dispatcher in *. cbn [s_codes] in Hf.
    destruct (add_dispatcher s (FTrigs (a :: l)) (Z.shiftl 1 q) (fun r => if r =? q then [] else s_q s r) G Hf) as [H1 H2].
    split; [exact H1|]. split; [reflexivity|]. intros p Hp. rewrite H2 by auto. f_equal.
    rewrite runs_for_bit by auto. rewrite Z.eqb_sym. destruct (Z.eqb_spec p q) as [->|]; [|reflexivity].
    rewrite E. reflexivity.
Qed.

Definition flush_l (ex : Z -> bool) (l : list Z) (s : st) : st := fold_left (fun s p => if ex p then append_ptriggers s p else s) l s.
Lemma flush_len ex l : forall s, (length (s_codes s) <= length (s_codes (flush_l ex l s)))%nat.
Proof.
  unfold flush_l. induction l as [|a l IH]; intros s; cbn [fold_left]; [lia|].
  specialize (IH (if ex a then append_ptriggers s a else s)). destruct (ex a); [pose proof (append_len s a)|]; lia.
Qed.
Lemma flush_spec ex l : NoDup l -> (forall q, In q l -> 0 <= q <= 7) -> forall s, good s -> fits (s_codes (flush_l ex l s)) ->
  good (flush_l ex l s) /\
  (forall p, s_q (flush_l ex l s) p = if existsb (Z.eqb p) l && ex p then [] else s_q s p) /\
  forall p, 0 <= p <= 7 -> out (flush_l ex l s) p = out s p ++ (if existsb (Z.eqb p) l && ex p then map ERaw (s_q s p) else []).
Proof.
  induction l as [|a l IH]; intros ND Hl s G Hf.
  - cbn. split; [auto|]. split; [auto|]. intros. rewrite app_nil_r. reflexivity.
  - inversion ND as [|? ? Ha ND']; subst. cbn [flush_l fold_left] in *. fold (flush_l ex l (if ex a then append_ptriggers s a else s)) in *.
    assert (Na : forall p, existsb (Z.eqb p) l = true -> p <> a).
    { intros p Hp ->. apply Ha. apply existsb_exists in Hp. destruct Hp as (x & Hx & E). apply Z.eqb_eq in E. subst. auto. }
    destruct (ex a) eqn:Ea.
    + assert (Hf1 : fits (s_codes (append_ptriggers s a))).
      { pose proof (flush_len ex l (append_ptriggers s a)). unfold fits in *. lia. }
      destruct (append_spec s a G (Hl a (or_introl eq_refl)) Hf1) as (A1 & A2 & A3).
      destruct (IH ND' (fun q Hq => Hl q (or_intror Hq)) _ A1 Hf) as (B1 & B2 & B3).
      split; [exact B1|]. cbn [existsb]. split.
      * intros p. rewrite B2, A2. destruct (Z.eqb_spec p a) as [->|Hn]; cbn [orb].
        -- rewrite Ea. destruct (existsb (Z.eqb a) l); reflexivity.
        -- reflexivity.
      * intros p Hp. rewrite B3, A3, A2 by auto. rewrite <- app_assoc. f_equal.
        destruct (Z.eqb_spec p a) as [->|Hn]; cbn [orb].
        -- rewrite Ea. cbn [andb]. destruct (existsb (Z.eqb a) l && true); cbn [map]; rewrite app_nil_r; reflexivity.
        -- reflexivity.
    + destruct (IH ND' (fun q Hq => Hl q (or_intror Hq)) _ G Hf) as (B1 & B2 & B3).
      split; [exact B1|]. cbn [existsb]. split.
      * intros p. rewrite B2. destruct (Z.eqb_spec p a) as [->|Hn]; cbn [orb]; [|reflexivity].
        rewrite Ea. rewrite !andb_false_r. reflexivity.
      * intros p Hp. rewrite B3 by auto. destruct (Z.eqb_spec p a) as [->|Hn]; cbn [orb]; [|reflexivity].
        rewrite Ea, !andb_false_r. reflexivity.
Qed.
Lemma p8_nodup : NoDup players8.
Proof. unfold players8. repeat constructor; cbn [In]; lia. Qed.
Lemma p8_in p : existsb (Z.eqb p) players8 = true <-> 0 <= p <= 7.
Proof.
  rewrite existsb_exists. split.
  - intros (x & Hx & E). apply Z.eqb_eq in E. subst. unfold players8 in Hx. cbn [In] in Hx. lia.
  - intros H. exists p. split; [unfold players8; cbn [In]; lia|apply Z.eqb_refl].
Qed.
Lemma flush8 ex s : good s -> fits (s_codes (flush ex s)) ->
  good (flush ex s) /\ (forall p, 0 <= p <= 7 -> s_q (flush ex s) p = if ex p then [] else s_q s p) /\
  forall p, 0 <= p <= 7 -> out (flush ex s) p = out s p ++ (if ex p then map ERaw (s_q s p) else []).
Proof.
  intros G Hf. change (flush ex s) with (flush_l ex players8 s) in *.
  destruct (flush_spec ex players8 p8_nodup) with (s := s) as (A & B & C); auto.
  { intros q Hq. unfold players8 in Hq. cbn [In] in Hq. lia. }
  split; [auto|]. split; intros p Hp.
  - rewrite B. rewrite (proj2 (p8_in p) Hp). reflexivity.
  - rewrite C by auto. rewrite (proj2 (p8_in p) Hp). reflexivity.
Qed.
Lemma flush_len8 ex s : (length (s_codes s) <= length (s_codes (flush ex s)))%nat.
Proof. apply (flush_len ex players8). Qed.

(* inline code has an empty list of players *)
Lemma code_no_players t pc p : 0 <= p <= 7 -> inline_player_code t = Some pc -> get_executing_players force t p = false.
Proof.
  intros Hp. unfold inline_player_code. destruct (negb (dword t 20 =? 0x10978D4A)); [discriminate|].
  unfold GetInlineCodePlayerList. destruct (existsb _ _) eqn:E; [discriminate|]. intros _.
  assert (H : forall k, (k < 28)%nat -> eff t (Z.of_nat k) = false).
  { intros k Hk. destruct (eff t (Z.of_nat k)) eqn:Ek; auto. exfalso.
    assert (existsb (fun k => eff t (Z.of_nat k)) (seq 0 28) = true); [|congruence].
    apply existsb_exists. exists k. split; [apply in_seq; lia|auto]. }
  assert (H' : forall i, 0 <= i < 28 -> eff t i = false).
  { intros i Hi. specialize (H (Z.to_nat i) ltac:(lia)). rewrite Z2Nat.id in H by lia. exact H. }
  pose proof (Hforce p). unfold get_executing_players. rewrite !H' by lia. reflexivity.
Qed.

Lemma step_len t s : (length (s_codes s) <= length (s_codes (one_segment cut force t s)))%nat.
Proof.
  unfold one_segment. destruct (inline_player_code t) as [pc|].
  - cbn [create_dispatcher add_seg s_codes]. eapply Nat.le_trans; [|apply flush_len8]. cbn [s_codes]. rewrite app_length. lia.
  - destruct (flags t <? 0x80000000); [destruct (_ && _)|]; cbn [add_seg enqueue s_codes]; try apply flush_len8. lia.
Qed.

(* one segment *)
Lemma step_code t pc s : good s -> inline_player_code t = Some pc -> fits (s_codes (one_segment cut force t s)) ->
  let s' := one_segment cut force t s in
  good s' /\ forall p, 0 <= p <= 7 -> s_q s' p = s_q s p /\ out s' p = out s p ++ src_event force p t.
Proof.
  intros G Hc Hf s'. unfold s', one_segment in *. rewrite Hc in *. unfold create_dispatcher in *.
  set (ex := get_executing_players force t) in *.
  assert (Fl : forall s, flush ex s = s).
  { intros s1. unfold flush. assert (Q : forall l, (forall q, In q l -> 0 <= q <= 7) -> forall s, fold_left (fun s p => if ex p then append_ptriggers s p else s) l s = s).
    { induction l as [|a l IH]; intros Hl s2; [reflexivity|]. cbn [fold_left].
      unfold ex at 2. rewrite (code_no_players t pc a) by (auto; apply Hl; left; auto). apply IH. intros; apply Hl; right; auto. }
    apply Q. intros q Hq. unfold players8 in Hq. cbn [In] in Hq. lia. }
  rewrite Fl in *. cbn [add_seg s_codes s_segs s_q] in *.
  destruct (add_dispatcher s (FCode (code_data t)) pc (s_q s) G Hf) as [A B]. split; [exact A|].
  intros p Hp. split; [reflexivity|]. rewrite B by auto. f_equal. unfold src_event. rewrite Hc. reflexivity.
Qed.
Lemma step_plain t s : good s -> inline_player_code t = None -> flags t <> 0x10000000 -> fits (s_codes (one_segment cut force t s)) ->
  let s' := one_segment cut force t s in
  good s' /\ forall p, 0 <= p <= 7 -> out s' p ++ map ERaw (s_q s' p) = out s p ++ map ERaw (s_q s p) ++ src_event force p t.
Proof.
  intros G Hc Hm Hf s'. unfold s', one_segment in *. rewrite Hc in *.
  set (ex := get_executing_players force t) in *.
  assert (Ev : forall p, src_event force p t = if ex p then [ERaw t] else []).
  { intros p. unfold src_event. rewrite Hc. unfold ex. rewrite gep_runs. reflexivity. }
  assert (K : fits (s_codes (add_seg t (flush ex s))) -> good (add_seg t (flush ex s)) /\ forall p, 0 <= p <= 7 ->
     out (add_seg t (flush ex s)) p ++ map ERaw (s_q (add_seg t (flush ex s)) p) = out s p ++ map ERaw (s_q s p) ++ src_event force p t).
  { intros Hf'. cbn [add_seg s_codes] in Hf'. destruct (flush8 ex s G Hf') as ([A1 A2] & B & C). split.
    - split; cbn [add_seg s_codes s_segs]; auto. apply Forall_app. split; auto. constructor; [left; auto|constructor].
    - intros p Hp. unfold out at 1. cbn [add_seg s_codes s_segs s_q]. rewrite out_app. fold (out (flush ex s) p).
      rewrite C, B, Ev by auto.
      replace (out_event force (s_codes (flush ex s)) p t) with (if ex p then [ERaw t] else []).
      + destruct (ex p); cbn [map]; rewrite ?app_nil_r, <- ?app_assoc; reflexivity.
      + unfold out_event, ex. rewrite gep_runs. destruct (Z.eqb_spec (flags t) 0x10000000); [contradiction|reflexivity]. }
  assert (Q : good (enqueue ex t s) /\ forall p, 0 <= p <= 7 ->
     out (enqueue ex t s) p ++ map ERaw (s_q (enqueue ex t s) p) = out s p ++ map ERaw (s_q s p) ++ src_event force p t).
  { split; [destruct G as [G1 G2]; split; assumption|]. intros p Hp. cbn [enqueue s_q].
    rewrite (proj2 (p8_in p) Hp), Ev. cbn [andb]. unfold out. cbn [enqueue s_codes s_segs].
    destruct (ex p); [rewrite map_app|rewrite app_nil_r]; reflexivity. }
  destruct (flags t <? 0x80000000); [destruct (_ && _)|]; auto.
Qed.

Definition run_segs (l : list bytes) (s : st) : st := fold_left (fun s t => one_segment cut force t s) l s.
Lemma run_len l : forall s, (length (s_codes s) <= length (s_codes (run_segs l s)))%nat.
Proof.
  unfold run_segs. induction l as [|t l IH]; intros s; cbn [fold_left]; [lia|].
  specialize (IH (one_segment cut force t s)). pose proof (step_len t s). lia.
Qed.
Definition unmarked (t : bytes) : Prop := inline_player_code t = None -> flags t <> 0x10000000.

(* split lists of events *)
Lemma raws_map q : filter is_raw (map ERaw q) = map ERaw q.
Proof. induction q; cbn [map filter is_raw]; congruence. Qed.
Lemma codes_map q : filter is_code (map ERaw q) = [].
Proof. induction q; cbn [map filter]; auto. Qed.

Lemma run_split l : forall s, good s -> Forall unmarked l -> fits (s_codes (run_segs l s)) ->
  good (run_segs l s) /\ forall p, 0 <= p <= 7 ->
    filter is_raw (out (run_segs l s) p) ++ map ERaw (s_q (run_segs l s) p) =
      filter is_raw (out s p) ++ map ERaw (s_q s p) ++ filter is_raw (src_events force l p) /\
    filter is_code (out (run_segs l s) p) = filter is_code (out s p) ++ filter is_code (src_events force l p).
Proof.
  induction l as [|t l IH]; intros s G Hu Hf.
  - split; [exact G|]. intros p Hp. cbn [run_segs fold_left src_events flat_map filter]. rewrite !app_nil_r. auto.
  - cbn [run_segs fold_left] in *. fold (run_segs l (one_segment cut force t s)) in *.
    pose proof (Forall_inv Hu) as Ht. pose proof (Forall_inv_tail Hu) as Hu'.
    assert (Hf1 : fits (s_codes (one_segment cut force t s))) by (pose proof (run_len l (one_segment cut force t s)); unfold fits in *; lia).
    unfold src_events. cbn [flat_map]. fold (src_events force l).
    destruct (inline_player_code t) as [pc|] eqn:Hc.
    + destruct (step_code t pc s G Hc Hf1) as [A B]. destruct (IH _ A Hu' Hf) as [A' B']. split; [exact A'|].
      intros p Hp. destruct (B p Hp) as [B1 B2]. destruct (B' p Hp) as [C1 C2]. rewrite C1, C2, B1, B2. rewrite !filter_app.
      assert (S1 : filter is_raw (src_event force p t) = []) by (unfold src_event; rewrite Hc; destruct (runs_for _ _ _); reflexivity).
      fold (src_events force l p). rewrite S1, app_nil_r, <- app_assoc. auto.
    + destruct (step_plain t s G Hc (Ht Hc) Hf1) as [A B]. destruct (IH _ A Hu' Hf) as [A' B']. split; [exact A'|].
      intros p Hp. specialize (B p Hp). destruct (B' p Hp) as [C1 C2]. rewrite C1, C2. fold (src_events force l p). rewrite !filter_app.
      assert (S1 : filter is_code (src_event force p t) = []) by (unfold src_event; rewrite Hc; destruct (runs_for _ _ _); reflexivity).
      rewrite S1. split.
      * apply (f_equal (filter is_raw)) in B. rewrite !filter_app, !raws_map in B.
        rewrite app_assoc, B. rewrite <- !app_assoc. reflexivity.
      * apply (f_equal (filter is_code)) in B. rewrite !filter_app, !codes_map, S1, !app_nil_r in B. rewrite B. reflexivity.
Qed.

(* no inline code in the segments *)
Lemma run_plain l : forall s, good s -> Forall unmarked l -> Forall (fun t => inline_player_code t = None) l -> fits (s_codes (run_segs l s)) ->
  good (run_segs l s) /\ forall p, 0 <= p <= 7 ->
    out (run_segs l s) p ++ map ERaw (s_q (run_segs l s) p) = out s p ++ map ERaw (s_q s p) ++ src_events force l p.
Proof.
  induction l as [|t l IH]; intros s G Hu Hn Hf.
  - split; [exact G|]. intros p Hp. cbn. rewrite app_nil_r. auto.
  - cbn [run_segs fold_left] in *. fold (run_segs l (one_segment cut force t s)) in *.
    assert (Hf1 : fits (s_codes (one_segment cut force t s))) by (pose proof (run_len l (one_segment cut force t s)); unfold fits in *; lia).
    destruct (step_plain t s G (Forall_inv Hn) (Forall_inv Hu (Forall_inv Hn)) Hf1) as [A B].
    destruct (IH _ A (Forall_inv_tail Hu) (Forall_inv_tail Hn) Hf) as [A' B']. split; [exact A'|].
    intros p Hp. rewrite B' by auto. rewrite app_assoc, B by auto. unfold src_events. cbn [flat_map]. rewrite <- !app_assoc. reflexivity.
Qed.
(* only inline code *)
Lemma run_code l : forall s, good s -> Forall (fun t => inline_player_code t <> None) l -> fits (s_codes (run_segs l s)) ->
  good (run_segs l s) /\ forall p, 0 <= p <= 7 ->
    s_q (run_segs l s) p = s_q s p /\ out (run_segs l s) p = out s p ++ src_events force l p.
Proof.
  induction l as [|t l IH]; intros s G Hn Hf.
  - split; [exact G|]. intros p Hp. cbn. rewrite app_nil_r. auto.
  - cbn [run_segs fold_left] in *. fold (run_segs l (one_segment cut force t s)) in *.
    assert (Hf1 : fits (s_codes (one_segment cut force t s))) by (pose proof (run_len l (one_segment cut force t s)); unfold fits in *; lia).
    pose proof (Forall_inv Hn) as Ht. destruct (inline_player_code t) as [pc|] eqn:Hc; [|congruence].
    destruct (step_code t pc s G Hc Hf1) as [A B]. destruct (IH _ A (Forall_inv_tail Hn) Hf) as [A' B']. split; [exact A'|].
    intros p Hp. destruct (B p Hp) as [B1 B2]. destruct (B' p Hp) as [C1 C2]. rewrite C1, C2, B1, B2. split; auto.
    unfold src_events. cbn [flat_map]. rewrite <- app_assoc. reflexivity.
Qed.

Lemma blank_byte i : 0 <= i < 2400 -> bat blank i = if i =? 2368 then 4 else if i =? 2372 + 17 then 1 else 0.
Proof. intros H. unfold blank. rewrite (bat_map (fun i => if i =? 2368 then 4 else if i =? 2372 + 17 then 1 else 0)) by auto. reflexivity. Qed.
Lemma blank_event cs p : out_event force cs p blank = [ERaw blank].
Proof.
  unfold out_event, runs_for. assert (E : eff blank 17 = true) by (unfold eff; rewrite blank_byte by lia; reflexivity).
  rewrite E. cbn [orb]. assert (F : flags blank = 4) by (unfold flags, dword; rewrite !blank_byte by lia; reflexivity). rewrite F. reflexivity.
Qed.
Definition s0 : st := mkst [] [] (fun _ => []).
Lemma good0 : good s0.
Proof. split; [intros [|i] c H; discriminate H|constructor]. Qed.

(* the whole conversion, in terms of the state before the last flush *)
Lemma conv_out sec p : 0 <= p <= 7 -> good (run_segs (segments (length sec) sec) s0) -> fits (fst (consecutive cut force sec)) ->
  out_events force (fst (consecutive cut force sec)) (snd (consecutive cut force sec)) p =
  out (run_segs (segments (length sec) sec) s0) p ++ map ERaw (s_q (run_segs (segments (length sec) sec) s0) p) ++ [ERaw blank].
Proof.
  intros Hp G Hf. unfold consecutive in *. fold s0 in *. fold (run_segs (segments (length sec) sec) s0) in *.
  set (s := run_segs (segments (length sec) sec) s0) in *. cbn [fst snd] in *.
  destruct (flush8 (fun _ => true) s G Hf) as (A & B & C).
  rewrite out_app, blank_event. fold (out (flush (fun _ => true) s) p). rewrite C by auto. rewrite <- app_assoc. reflexivity.
Qed.
Lemma conv_fits sec : fits (fst (consecutive cut force sec)) -> fits (s_codes (run_segs (segments (length sec) sec) s0)).
Proof. unfold consecutive. cbn [fst]. fold s0. intros H. pose proof (flush_len8 (fun _ => true) (run_segs (segments (length sec) sec) s0)). unfold fits, run_segs in *. lia. Qed.

(* every player executes the map's triggers in the map's order, and the inline code in the map's order *)
Theorem C48_order_partial : forall sec p, 0 <= p <= 7 ->
  let segs := segments (length sec) sec in
  let cs := fst (consecutive cut force sec) in let res := snd (consecutive cut force sec) in
  Forall unmarked segs -> fits cs ->
  filter is_raw (out_events force cs res p) = filter is_raw (src_events force segs p) ++ [ERaw blank] /\
  filter is_code (out_events force cs res p) = filter is_code (src_events force segs p).
Proof.
  intros sec p Hp segs cs res Hu Hf.
  destruct (run_split segs s0 good0 Hu (conv_fits sec Hf)) as [G H]. destruct (H p Hp) as [H1 H2].
  unfold cs, res. rewrite conv_out by auto. fold segs. rewrite !filter_app, raws_map, codes_map. cbn [filter is_raw is_code negb].
  split.
  - rewrite app_assoc, H1. reflexivity.
  - cbn [app]. rewrite app_nil_r, H2. reflexivity.
Qed.
(* without inline code, and with inline code in front: exactly the same sequence *)
Theorem C48_order : forall sec p code rest, 0 <= p <= 7 ->
  let segs := segments (length sec) sec in
  let cs := fst (consecutive cut force sec) in let res := snd (consecutive cut force sec) in
  Forall unmarked segs -> fits cs ->
  segs = code ++ rest ->
  Forall (fun t => inline_player_code t <> None) code -> Forall (fun t => inline_player_code t = None) rest ->
  out_events force cs res p = src_events force segs p ++ [ERaw blank].
Proof.
  intros sec p code rest Hp segs cs res Hu Hf Es Hc Hr.
  pose proof (conv_fits sec Hf) as Hf'. fold segs in Hf'.
  assert (R : run_segs segs s0 = run_segs rest (run_segs code s0)) by (rewrite Es; unfold run_segs; apply fold_left_app).
  assert (Hu2 : Forall unmarked rest) by (rewrite Es in Hu; apply Forall_app in Hu; tauto).
  rewrite R in Hf'.
  assert (Hf1 : fits (s_codes (run_segs code s0))) by (pose proof (run_len rest (run_segs code s0)); unfold fits in *; lia).
  destruct (run_code code s0 good0 Hc Hf1) as [G1 H1]. destruct (run_plain rest _ G1 Hu2 Hr Hf') as [G2 H2].
  destruct (H1 p Hp) as [Q1 Q2]. specialize (H2 p Hp).
  assert (G : good (run_segs segs s0)) by (rewrite R; exact G2).
  unfold cs, res. rewrite conv_out by auto. fold segs. rewrite R, app_assoc, H2, Q1, Q2.
  cbn [s_q s0 map]. unfold out at 1. cbn [s_codes s_segs s0 out_events flat_map app].
  rewrite Es. unfold src_events. rewrite flat_map_app. reflexivity.
Qed.

(* ---------- one by one (rate below 1) ---------- *)
Lemma eff_code_bit t i : 0 <= i < 27 -> Z.testbit (eff_code t) i = eff t i.
Proof.
  intros Hi. unfold eff_code.
  assert (Q : forall l c, (forall k, In k l -> True) -> Z.testbit (fold_left (fun c k => if eff t (Z.of_nat k) then Z.lor c (Z.shiftl 1 (Z.of_nat k)) else c) l c) i
     = Z.testbit c i || (existsb (fun k => Z.of_nat k =? i) l && eff t i)).
  { induction l as [|k l IH]; intros c _; cbn [fold_left existsb]; [rewrite orb_false_r; reflexivity|].
    rewrite IH by auto. destruct (Z.eqb_spec (Z.of_nat k) i) as [E|E].
    - rewrite E. destruct (eff t i) eqn:Ei; cbn [orb andb].
      + rewrite Z.lor_spec, Z.shiftl_1_l, Z.pow2_bits_eqb, Z.eqb_refl by lia. rewrite !orb_true_r. reflexivity.
      + rewrite andb_false_r. reflexivity.
    - cbn [orb]. destruct (eff t (Z.of_nat k)); [|reflexivity].
      rewrite Z.lor_spec, Z.shiftl_1_l, Z.pow2_bits_eqb by lia. destruct (Z.eqb_spec (Z.of_nat k) i); [lia|]. rewrite orb_false_r. reflexivity. }
  rewrite Q by auto. rewrite Z.bits_0. cbn [orb].
  assert (E : existsb (fun k => Z.of_nat k =? i) (seq 0 27) = true).
  { apply existsb_exists. exists (Z.to_nat i). split; [apply in_seq; lia|lia]. }
  rewrite E. reflexivity.
Qed.
(* not a preserved trigger of all players or of none *)
Definition ordinary (t : bytes) : Prop :=
  preserved_and_has_no_wait t = true -> (exists p, 0 <= p <= 7 /\ runs_for force (eff t) p = true) /\ (exists p, 0 <= p <= 7 /\ runs_for force (eff t) p = false).

Lemma execp_in t p : 0 <= p <= 7 -> In p (filter (get_executing_players force t) players8) <-> runs_for force (eff t) p = true.
Proof.
  intros Hp. rewrite filter_In, gep_runs. split; [tauto|]. intros H. split; auto. unfold players8. cbn [In]. lia.
Qed.
Lemma filter_length_le {A} (f : A -> bool) l : (length (filter f l) <= length l)%nat.
Proof. induction l as [|a l IH]; cbn [filter length]; [lia|]. destruct (f a); cbn [length]; lia. Qed.
Lemma filter_len_all {A} (f : A -> bool) l : length (filter f l) = length l -> forall x, In x l -> f x = true.
Proof.
  induction l as [|a l IH]; intros H x Hx; [contradiction|]. cbn [filter] in H.
  pose proof (filter_length_le f l) as Q. destruct (f a) eqn:E.
  - cbn [length] in H. destruct Hx as [->|Hx]; auto.
  - cbn [length] in H. lia.
Qed.
Lemma sorted_bounds f a l p : filter f players8 = a :: l -> In p (a :: l) -> a <= p <= last (a :: l) a.
Proof.
  intros E Hp.
  assert (Q : forall l, (forall i j x y, nth_error l i = Some x -> nth_error l j = Some y -> (i <= j)%nat -> x <= y) ->
     forall f a r p, filter f l = a :: r -> In p (a :: r) -> a <= p <= last (a :: r) a).
  { clear. induction l as [|x l IH]; intros S f a r p E Hp; [discriminate|].
    assert (S' : forall i j x y, nth_error l i = Some x -> nth_error l j = Some y -> (i <= j)%nat -> x <= y).
    { intros i j u v Hu Hv Hij. apply (S (Datatypes.S i) (Datatypes.S j)); auto. lia. }
    cbn [filter] in E. destruct (f x) eqn:Ex; [|eapply IH; eauto].
    injection E as -> E. destruct r as [|b r].
    - destruct Hp as [->|[]]. cbn [last]. lia.
    - assert (Ha : forall q, In q (b :: r) -> a <= q).
      { intros q Hq. rewrite <- E in Hq. apply filter_In in Hq. destruct Hq as [Hq _]. apply In_nth_error in Hq. destruct Hq as [j Hj].
        apply (S 0%nat (Datatypes.S j) a q); auto. lia. }
      assert (La : last (a :: b :: r) a = last (b :: r) b).
      { change (last (a :: b :: r) a) with (last (b :: r) a). clear. revert a b. induction r as [|c r IH]; intros; [reflexivity|].
        change (last (b :: c :: r) a) with (last (c :: r) a). change (last (b :: c :: r) b) with (last (c :: r) b). rewrite (IH a c), (IH b c). reflexivity. }
      rewrite La. destruct Hp as [->|Hp].
      + pose proof (IH S' f b r b E (or_introl eq_refl)). pose proof (Ha b (or_introl eq_refl)). lia.
      + pose proof (IH S' f b r p E Hp). pose proof (Ha p Hp). lia. }
  apply (Q players8) with (f := f); auto. clear. intros i j x y Hx Hy Hij. unfold players8 in *.
  assert (Q8 : forall k z, nth_error [0; 1; 2; 3; 4; 5; 6; 7] k = Some z -> z = Z.of_nat k).
  { intros k z H. do 8 (destruct k as [|k]; [cbn in H; injection H as <-; reflexivity|]). destruct k; discriminate H. }
  apply Q8 in Hx, Hy. lia.
Qed.
Lemma one_event t p : 0 <= p <= 7 -> ordinary t -> runs_for force (eff t) p = true -> func_events force (FOne t) p = [ERaw t].
Proof.
  intros Hp Ho Hr. cbn [func_events]. unfold one_runs.
  set (ex := get_executing_players force t) in *.
  assert (I : In p (filter ex players8)) by (apply execp_in; auto).
  assert (X : existsb (Z.eqb p) (filter ex players8) = true).
  { apply existsb_exists. exists p. split; [auto|apply Z.eqb_refl]. }
  rewrite X. destruct (preserved_and_has_no_wait t) eqn:En; [|reflexivity].
  destruct (Ho En) as [_ (p0 & Hp0 & F)].
  destruct (Nat.eqb_spec (length (filter ex players8)) 8) as [E8|E8]; cbn [andb].
  - exfalso. assert (Q := filter_len_all ex players8 E8 p0). unfold ex in Q. rewrite gep_runs in Q.
    rewrite Q in F; [discriminate|]. unfold players8. cbn [In]. lia.
  - destruct (filter ex players8) as [|a l] eqn:E; [destruct I|].
    pose proof (sorted_bounds ex a l p E I) as B.
    destruct (_ =? _); [|reflexivity].
    destruct (Z.leb_spec a p); [|lia]. destruct (Z.leb_spec p (last (a :: l) a)); [|lia]. reflexivity.
Qed.

Lemma lookup_ext cs ext id f : lookup cs id = Some f -> lookup (cs ++ ext) id = Some f.
Proof.
  revert cs. induction ext as [|x ext IH]; intros cs H; [rewrite app_nil_r; auto|].
  replace (cs ++ x :: ext) with ((cs ++ [x]) ++ ext) by (rewrite <- app_assoc; reflexivity). apply IH. apply lookup_keep. auto.
Qed.
Lemma pre_spec coin l : forall i cs, ids_ok cs -> Forall unmarked l -> Forall ordinary l -> fits (fst (preprocess coin i l cs)) ->
  (exists ext, fst (preprocess coin i l cs) = cs ++ ext) /\ forall p, 0 <= p <= 7 ->
  out_events force (fst (preprocess coin i l cs)) (snd (preprocess coin i l cs)) p = src_events force l p ++ [ERaw blank].
Proof.
  induction l as [|t l IH]; intros i cs Hi Hu Ho Hf.
  - cbn [preprocess fst snd]. split; [exists []; rewrite app_nil_r; auto|]. intros p Hp. unfold out_events. cbn [flat_map]. rewrite blank_event. reflexivity.
  - pose proof (Forall_inv Hu) as Ut. pose proof (Forall_inv_tail Hu) as Hu'. pose proof (Forall_inv Ho) as Ot. pose proof (Forall_inv_tail Ho) as Ho'.
    cbn [preprocess] in *.
    assert (D : forall f pc, (forall p, 0 <= p <= 7 -> (if runs_for force (Z.testbit pc) p then func_events force f p else []) = src_event force p t) ->
       (let '(cs1, t1) := create_dispatcher cs f pc in let '(cs2, o) := preprocess coin (S i) l cs1 in (cs2, t1 :: o)) =
       (let '(cs1, t1) := match inline_player_code t with
          | Some pc => create_dispatcher cs (FCode (code_data t)) pc
          | None => if (flags t <? 0x80000000) && coin i then create_dispatcher cs (FOne t) (eff_code t) else (cs, t)
          end in let '(cs2, o) := preprocess coin (S i) l cs1 in (cs2, t1 :: o)) ->
       (exists ext, fst (let '(cs1, t1) := create_dispatcher cs f pc in let '(cs2, o) := preprocess coin (S i) l cs1 in (cs2, t1 :: o)) = cs ++ ext) /\
       forall p, 0 <= p <= 7 -> out_events force (fst (let '(cs1, t1) := create_dispatcher cs f pc in let '(cs2, o) := preprocess coin (S i) l cs1 in (cs2, t1 :: o)))
          (snd (let '(cs1, t1) := create_dispatcher cs f pc in let '(cs2, o) := preprocess coin (S i) l cs1 in (cs2, t1 :: o))) p = src_events force (t :: l) p ++ [ERaw blank]).
    { intros f pc He Heq. rewrite <- Heq in Hf. clear Heq. unfold create_dispatcher in *. cbn [fst snd] in *.
      set (id := Z.of_nat (length cs) + 1024) in *. specialize (IH (S i) (cs ++ [(id, f)]) (ids_app cs f Hi) Hu' Ho').
      destruct (preprocess coin (S i) l (cs ++ [(id, f)])) as [cs2 o] eqn:E. cbn [fst snd] in *.
      destruct (IH Hf) as [[ext Ex] IHp]. split; [exists ((id, f) :: ext); rewrite Ex, <- app_assoc; reflexivity|].
      intros p Hp. unfold out_events, src_events. cbn [flat_map]. fold (out_events force cs2 o p). rewrite IHp by auto. fold (src_events force l p).
      rewrite <- app_assoc. f_equal. rewrite <- He by auto. unfold out_event. rewrite runs_for_nt, nt_flags, Z.eqb_refl by auto.
      rewrite nt_id.
      + rewrite Ex. rewrite (lookup_ext _ _ _ f); [reflexivity|]. apply lookup_new. exact Hi.
      + unfold fits in Hf. rewrite Ex, !app_length in Hf. cbn [length] in Hf. unfold id. lia. }
    destruct (inline_player_code t) as [pc|] eqn:Hc.
    + apply D; [|reflexivity]. intros p Hp. unfold src_event. rewrite Hc. reflexivity.
    + destruct ((flags t <? 0x80000000) && coin i) eqn:Ec.
      * apply D; [|reflexivity]. intros p Hp. unfold src_event. rewrite Hc. pose proof (Hforce p).
        assert (R : runs_for force (Z.testbit (eff_code t)) p = runs_for force (eff t) p) by (unfold runs_for; rewrite !eff_code_bit by lia; reflexivity).
        rewrite R. destruct (runs_for force (eff t) p) eqn:Er; [|reflexivity]. apply one_event; auto.
      * clear D. specialize (IH (S i) cs Hi Hu' Ho'). destruct (preprocess coin (S i) l cs) as [cs2 o] eqn:E. cbn [fst snd] in *.
        destruct (IH Hf) as [[ext Ex] IHp]. split; [exists ext; exact Ex|]. intros p Hp.
        unfold out_events, src_events. cbn [flat_map]. fold (out_events force cs2 o p). rewrite IHp by auto. fold (src_events force l p).
        rewrite <- app_assoc. f_equal. unfold src_event, out_event. rewrite Hc.
        destruct (Z.eqb_spec (flags t) 0x10000000) as [E1|]; [destruct (Ut Hc E1)|]. reflexivity.
Qed.
(* whichever triggers are moved to the payload: the same sequence *)
Theorem C48_one_by_one : forall coin sec p, 0 <= p <= 7 ->
  let segs := segments (length sec) sec in
  let cs := fst (preprocess coin 0 segs []) in let res := snd (preprocess coin 0 segs []) in
  Forall unmarked segs -> Forall ordinary segs -> fits cs ->
  out_events force cs res p = src_events force segs p ++ [ERaw blank].
Proof.
  intros coin sec p Hp segs cs res Hu Ho Hf.
  destruct (pre_spec coin segs 0 []) as [_ H]; auto. intros [|i] c H; discriminate H.
Qed.
End Order.

(* ---------- shared triggers ---------- *)
Lemma node_eqb_spec a b : reflect (a = b) (node_eqb a b).
Proof.
  destruct a, b; cbn [node_eqb]; try (constructor; congruence).
  - destruct (Nat.eqb_spec k k0), (Nat.eqb_spec i i0); cbn [andb]; constructor; congruence.
  - destruct (Nat.eqb_spec j j0); constructor; congruence.
  - destruct (Nat.eqb_spec r r0); constructor; congruence.
Qed.
Lemma nset_eq a b n : nset a b n a = Some b.
Proof. unfold nset. destruct (node_eqb_spec a a); congruence. Qed.
Lemma nset_ne a b n c : c <> a -> nset a b n c = n c.
Proof. intros. unfold nset. destruct (node_eqb_spec c a); congruence. Qed.

(* visited triggers: follow next pointers *)
Fixpoint follow (m : nat) (n : nexts) (a : node) : list node :=
  match m with
  | O => []
  | S m => a :: match n a with Some b => follow m n b | None => [] end
  end.
Fixpoint nodes (k i : nat) (l : list item) : list node := match l with [] => [] | it :: r => node_of k i it :: nodes k (S i) r end.
Fixpoint shared (l : list item) : list nat := match l with [] => [] | IShr j :: r => j :: shared r | IOwn :: r => shared r end.
Definition is_own (a : node) : Prop := match a with Own _ _ => True | _ => False end.

Lemma build_other k l : forall i s q, is_own q -> b_pend s <> Some q -> (forall m, (i <= m)%nat -> q <> Own k m) -> b_next (build_items k i l s) q = b_next s q.
Proof.
  induction l as [|it l IH]; intros i s q Hq Hp Hm; [reflexivity|]. cbn [build_items].
  assert (L : forall n, link s n q = b_next s q).
  { intros n. unfold link. destruct (b_pend s) as [r|] eqn:E; [|reflexivity]. apply nset_ne. congruence. }
  rewrite IH; auto.
  - unfold build_item. destruct it as [|j]; [apply L|]. destruct (existsb _ _); [destruct (b_b2s s)|]; cbn [b_next]; auto.
  - unfold build_item. destruct it as [|j]; [cbn [b_pend]; specialize (Hm i (Nat.le_refl i)); congruence|].
    destruct (existsb _ _); [destruct (b_b2s s)|]; cbn [b_pend]; auto; try congruence. intros E. injection E as <-. exact Hq.
  - intros m Hm'. apply Hm. lia.
Qed.
Lemma build_own k l : forall i s, 
  (forall it r, l = it :: r -> b_b2s s = true -> forall q, is_own q -> b_pend s = Some q -> (forall m, (i <= m)%nat -> q <> Own k m) ->
      b_next (build_items k i l s) q = Some (node_of k i it)) /\
  (forall m it', nth_error l m = Some IOwn -> nth_error l (S m) = Some it' -> b_next (build_items k i l s) (Own k (i + m)) = Some (node_of k (i + S m) it')).
Proof.
  induction l as [|it l IH]; intros i s; split.
  - discriminate.
  - intros [|m] it' H; discriminate H.
  - intros it0 r E Hb q Hq Hp Hm. injection E as <- <-. cbn [build_items].
    rewrite build_other; auto.
    + unfold build_item. destruct it as [|j]; cbn [node_of].
      * cbn [b_next]. unfold link. rewrite Hp. apply nset_eq.
      * rewrite Hb. destruct (existsb _ _); cbn [b_next]; unfold link; rewrite Hp; apply nset_eq.
    + unfold build_item. destruct it as [|j]; [cbn [b_pend]; specialize (Hm i (Nat.le_refl i)); congruence|].
      rewrite Hb. destruct (existsb _ _); cbn [b_pend]; [congruence|]. intros E. injection E as <-. exact Hq.
    + intros m Hm'. apply Hm. lia.
  - intros m it' H1 H2. cbn [build_items]. destruct m as [|m].
    + cbn [nth_error] in H1, H2. injection H1 as ->. destruct l as [|it2 l]; [discriminate|]. injection H2 as ->.
      replace (i + 1)%nat with (S i) by lia. rewrite Nat.add_0_r.
      apply (proj1 (IH (S i) (build_item k i IOwn s)) it' l eq_refl); [reflexivity|exact I|reflexivity|]. intros m Hm E. injection E as ->. lia.
    + cbn [nth_error] in H1. replace (i + S m)%nat with (S i + m)%nat by lia. replace (i + S (S m))%nat with (S i + S m)%nat by lia.
      apply (proj2 (IH (S i) _)); auto.
Qed.
Lemma build_lists_other ls : forall k made n q, is_own q -> (forall k' m, (k <= k')%nat -> q <> Own k' m) -> build_lists k ls made n q = n q.
Proof.
  induction ls as [|l ls IH]; intros k made n q Hq Hk; [reflexivity|]. cbn [build_lists]. rewrite IH; auto.
  - apply build_other; auto. cbn [b_pend]. discriminate.
  - intros k' m Hk'. apply Hk. lia.
Qed.
Lemma build_lists_own ls : forall k0 made n k l, nth_error ls k = Some l ->
  forall m it', nth_error l m = Some IOwn -> nth_error l (S m) = Some it' -> build_lists k0 ls made n (Own (k0 + k) m) = Some (node_of (k0 + k) (S m) it').
Proof.
  induction ls as [|l0 ls IH]; intros k0 made n k l Hk m it' H1 H2; [destruct k; discriminate|]. cbn [build_lists]. destruct k as [|k].
  - injection Hk as ->. rewrite Nat.add_0_r. rewrite build_lists_other; [|exact I|intros k' m' H E; injection E as -> ->; lia].
    apply (proj2 (build_own k0 l 0 _) m it' H1 H2).
  - replace (k0 + S k)%nat with (S k0 + k)%nat by lia. apply (IH (S k0) _ _ k l Hk m it' H1 H2).
Qed.
Lemma start_other k l : forall i n a, (forall j, In j (shared l) -> a <> Shr j) -> start_acts k i l n a = n a.
Proof.
  induction l as [|it l IH]; intros i n a Ha; [reflexivity|]. cbn [start_acts]. destruct it as [|j].
  - apply IH. exact Ha.
  - destruct l as [|it' l].
    + reflexivity.
    + rewrite IH; [|intros j' H; apply Ha; right; auto]. apply nset_ne. apply Ha. left. auto.
Qed.
Lemma start_shared k l : NoDup (shared l) -> forall i n m j it', nth_error l m = Some (IShr j) -> nth_error l (S m) = Some it' ->
  start_acts k i l n (Shr j) = Some (node_of k (i + S m) it').
Proof.
  induction l as [|it l IH]; intros ND i n m j it' H1 H2; [destruct m; discriminate|]. destruct m as [|m].
  - injection H1 as ->. cbn [shared] in ND. inversion ND as [|? ? Hn ND']; subst. destruct l as [|it2 l]; [discriminate|]. injection H2 as ->.
    cbn [start_acts]. replace (i + 1)%nat with (S i) by lia.
    pose proof (start_other k (it' :: l) (S i) (nset (Shr j) (node_of k (S i) it') n) (Shr j)) as Q. cbn [start_acts] in Q. rewrite Q; [apply nset_eq|].
    intros j' Hj E. injection E as ->. auto.
  - cbn [nth_error] in H1. assert (ND' : NoDup (shared l)) by (destruct it; cbn [shared] in ND; [auto|inversion ND; auto]).
    replace (i + S (S m))%nat with (S i + S m)%nat by lia. cbn [start_acts]. destruct it as [|j0]; [apply IH; auto|].
    destruct l as [|it2 l]; [destruct m; discriminate|]. apply IH; auto.
Qed.

(* calls made before, with the places they returned to *)
Definition history (ls : list (list item)) (h : list (nat * nat)) (n : nexts) : nexts :=
  fold_left (fun n c => match nth_error ls (fst c) with Some l => call (fst c) l (snd c) n | None => n end) h n.
Lemma last_own_pos k l t : last_node k l = Some t -> forall m it', nth_error l (S m) = Some it' -> t <> Own k m.
Proof.
  intros H m it' Hm E. subst t. unfold last_node in H. destruct l as [|it l]; [discriminate|]. assert (H' : node_of k (length l) (last (it :: l) it) = Own k m) by congruence. clear H; rename H' into H.
  assert (m < length l)%nat by (apply nth_error_Some; cbn [nth_error] in Hm; congruence).
  destruct (last (it :: l) it); cbn [node_of] in H; [|discriminate]. injection H as H. lia.
Qed.
Lemma last_node_list k l t k' m : last_node k l = Some t -> t = Own k' m -> k' = k.
Proof.
  unfold last_node. destruct l as [|it l]; [discriminate|]. intros H ->. assert (H' : node_of k (length l) (last (it :: l) it) = Own k' m) by congruence. destruct (last (it :: l) it); cbn [node_of] in H'; congruence.
Qed.
Lemma call_own ls k l r n k0 l0 m it' : nth_error ls k = Some l -> nth_error ls k0 = Some l0 -> nth_error l0 (S m) = Some it' ->
  call k l r n (Own k0 m) = n (Own k0 m).
Proof.
  intros Hk Hk0 Hm. unfold call. destruct (last_node k l) as [t|] eqn:E; [|reflexivity].
  rewrite start_other by (intros; congruence). apply nset_ne. intros Et. pose proof (last_node_list _ _ _ _ _ E (eq_sym Et)) as ->.
  assert (l0 = l) by congruence. subst l0. apply (last_own_pos k l t E m it' Hm). auto.
Qed.
Lemma nodes_nth k l : forall i m, nth_error (nodes k i l) m = match nth_error l m with Some it => Some (node_of k (i + m) it) | None => None end.
Proof.
  induction l as [|it l IH]; intros i [|m]; cbn [nodes nth_error]; auto.
  - rewrite Nat.add_0_r. reflexivity.
  - rewrite IH. replace (S i + m)%nat with (i + S m)%nat by lia. reflexivity.
Qed.
Lemma follow_nodes k n l : forall i it r, l = it :: r ->
  (forall m a b, nth_error (nodes k i l) m = Some a -> nth_error (nodes k i l) (S m) = Some b -> n a = Some b) ->
  follow (length l) n (node_of k i it) = nodes k i l.
Proof.
  induction l as [|it0 l IH]; intros i it r E H; [discriminate|]. injection E as <- <-. cbn [length follow nodes]. f_equal.
  destruct l as [|it1 l].
  - destruct (n (node_of k i it0)); reflexivity.
  - rewrite (H 0%nat _ (node_of k (S i) it1) eq_refl eq_refl). apply (IH (S i) it1 l eq_refl).
    intros m a b Ha Hb. apply (H (S m)); auto.
Qed.
Lemma shared_last_later l j : NoDup (shared l) -> forall m it', nth_error l m = Some (IShr j) -> nth_error l (S m) = Some it' ->
  forall it, last l it <> IShr j.
Proof.
  induction l as [|it0 l IH]; intros ND m it' H1 H2 it; [destruct m; discriminate|].
  destruct l as [|it1 l]; [destruct m; discriminate|]. change (last (it0 :: it1 :: l) it) with (last (it1 :: l) it).
  destruct m as [|m].
  - injection H1 as ->. cbn [shared] in ND. inversion ND as [|? ? Hn _]; subst. intros E. apply Hn. clear - E.
    revert it1 E. induction l as [|it2 l IH]; intros it1 E.
    + cbn [last] in E. subst. left. auto.
    + change (last (it1 :: it2 :: l) it) with (last (it2 :: l) it) in E. specialize (IH it2 E). destruct it1; cbn [shared]; [exact IH|right; exact IH].
  - assert (ND' : NoDup (shared (it1 :: l))) by (destruct it0; cbn [shared] in ND; [auto|inversion ND; auto]).
    apply (IH ND' m it' H1 H2).
Qed.

(* every call of a player's list executes its triggers in order and then returns,
   although shared triggers are linked anew at every call *)
Theorem C48_shared : forall ls h k l it rest r,
  nth_error ls k = Some l -> l = it :: rest -> NoDup (shared l) ->
  let n := call k l r (history ls h (build_lists 0 ls [] (fun _ => None))) in
  follow (S (length l)) n (node_of k 0 it) = nodes k 0 l ++ [Ret r].
Proof.
  intros ls h k l it rest r Hk El ND n.
  (* own triggers keep the links made at compile time *)
  assert (Own_ok : forall m it', nth_error l m = Some IOwn -> nth_error l (S m) = Some it' -> n (Own k m) = Some (node_of k (S m) it')).
  { intros m it' H1 H2. unfold n. rewrite (call_own ls k l r _ k l m it') by auto.
    pose proof (build_lists_own ls 0 [] (fun _ => None) k l Hk m it' H1 H2) as Q. cbn [Nat.add] in Q. rewrite <- Q. clear Q. unfold history.
    generalize (build_lists 0 ls [] (fun _ => None)). induction h as [|c h IH]; intros n0; [reflexivity|]. cbn [fold_left].
    rewrite IH. destruct (nth_error ls (fst c)) as [l'|] eqn:E; [|reflexivity]. apply (call_own ls (fst c) l' (snd c) n0 k l m it'); auto. }
  assert (Lk : exists t, last_node k l = Some t /\ t = node_of k (length rest) (last l it)).
  { rewrite El. cbn [last_node]. eexists. split; reflexivity. }
  destruct Lk as (t & Lt & Et).
  assert (Step : forall m a b, nth_error (nodes k 0 l) m = Some a -> nth_error (nodes k 0 l) (S m) = Some b -> n a = Some b).
  { intros m a b Ha Hb. rewrite nodes_nth in Ha, Hb. destruct (nth_error l m) as [[|j]|] eqn:E1; [| |discriminate]; destruct (nth_error l (S m)) as [it'|] eqn:E2; try discriminate.
    - injection Ha as <-. injection Hb as <-. cbn [node_of Nat.add]. apply Own_ok; auto.
    - injection Ha as <-. injection Hb as <-. cbn [node_of]. unfold n, call. rewrite Lt. apply (start_shared k l ND 0 _ m j it' E1 E2). }
  assert (Fin : n t = Some (Ret r)).
  { unfold n, call. rewrite Lt. rewrite Et. destruct (last l it) as [|j] eqn:El2; cbn [node_of].
    - rewrite start_other by (intros; congruence). apply nset_eq.
    - assert (Q : forall i n, (forall m it', nth_error l m = Some (IShr j) -> nth_error l (S m) = Some it' -> False) -> start_acts k i l n (Shr j) = n (Shr j)).
      { clear. induction l as [|it l IH]; intros i n H; [reflexivity|]. cbn [start_acts]. destruct it as [|j0].
        - apply IH. intros m it' H1 H2. apply (H (S m) it'); auto.
        - destruct l as [|it2 l]; [reflexivity|]. assert (Hj : Shr j <> Shr j0). { intros E. injection E as ->. apply (H 0%nat it2); reflexivity. }
          rewrite IH; [apply nset_ne; auto|]. intros m it' H1 H2. apply (H (S m) it'); auto. }
      rewrite Q; [apply nset_eq|]. intros m it' H1 H2. apply (shared_last_later l j ND m it' H1 H2 it). exact El2. }
  (* follow to the last, then one more *)
  assert (G : forall l i it rest, l = it :: rest -> (forall m a b, nth_error (nodes k i l) m = Some a -> nth_error (nodes k i l) (S m) = Some b -> n a = Some b) ->
     n (node_of k (i + length rest) (last l it)) = Some (Ret r) -> follow (S (length l)) n (node_of k i it) = nodes k i l ++ [Ret r]).
  { clearbody n. clear. induction l as [|it0 l IH]; intros i it rest E H F; [discriminate|]. injection E as <- <-.
    change (follow (S (length (it0 :: l))) n (node_of k i it0)) with (node_of k i it0 :: match n (node_of k i it0) with Some b => follow (S (length l)) n b | None => [] end).
    cbn [nodes app]. f_equal. destruct l as [|it1 l].
    - cbn [length last] in F. rewrite Nat.add_0_r in F. rewrite F. cbn [length follow nodes app]. destruct (n (Ret r)); reflexivity.
    - rewrite (H 0%nat _ (node_of k (S i) it1) eq_refl eq_refl). apply (IH (S i) it1 l eq_refl).
      + intros m a b Ha Hb. apply (H (S m)); auto.
      + cbn [length] in F. replace (i + S (length l))%nat with (S i + length l)%nat in F by lia.
        change (last (it0 :: it1 :: l) it0) with (last (it1 :: l) it0) in F.
        assert (La : forall l (a b c : item), last (c :: l) a = last (c :: l) b) by (clear; induction l; intros; [reflexivity|cbn [last]; apply IHl]).
        rewrite (La l it1 it0 it1). exact F. }
  apply (G l 0%nat it rest El Step). rewrite Nat.add_0_l, <- Et. exact Fin.
Qed.
Example C48_shared_case :
  let ls := [[IOwn; IShr 0; IShr 1; IOwn]; [IShr 1; IOwn; IShr 0]]%nat in
  follow 5 (call 0 [IOwn; IShr 0; IShr 1; IOwn]%nat 7 (history ls [(0, 3); (1, 4); (1, 5)]%nat (build_lists 0 ls [] (fun _ => None)))) (Own 0 0)
  = [Own 0 0; Shr 0; Shr 1; Own 0 3; Ret 7] /\
  follow 4 (call 1 [IShr 1; IOwn; IShr 0]%nat 9 (history ls [(0, 3)]%nat (build_lists 0 ls [] (fun _ => None)))) (Shr 1)
  = [Shr 1; Own 1 1; Shr 0; Ret 9].
Proof. vm_compute. split; reflexivity. Qed.

(* ---------- size of a trigger ---------- *)
(* the dwords that matter: next pointer, flags, cc conditions and the type of the
   following one, ac actions and the type of the following one *)
Definition matters (cc ac x : nat) : Prop :=
  (x = 1 \/ x = 594 \/ 2 <= x < 2 + 5 * cc \/ (cc < 16 /\ x = 2 + 5 * cc + 3) \/ 82 <= x < 82 + 8 * ac \/ (ac < 64 /\ x = 82 + 8 * ac + 6))%nat.
(* triggers every r dwords do not disturb each other *)
Definition stride_ok (cc ac r : nat) : Prop :=
  (1 <= r)%nat /\ forall x y i j, matters cc ac x -> matters cc ac y -> (x + r * i = y + r * j)%nat -> x = y /\ i = j.

Lemma used_in cc ac x : (cc <= 16)%nat -> (ac <= 64)%nat -> In x (used_dwords cc ac) <-> matters cc ac x.
Proof.
  intros Hc Ha. unfold used_dwords, matters. rewrite !in_app_iff, !in_seq. cbn [In].
  destruct (Nat.eqb_spec cc 16), (Nat.eqb_spec ac 64); cbn [In]; lia.
Qed.
Lemma used_nodup cc ac : (cc <= 16)%nat -> (ac <= 64)%nat -> NoDup (used_dwords cc ac).
Proof.
  intros Hc Ha. unfold used_dwords.
  assert (App : forall (a b : list nat), NoDup a -> NoDup b -> (forall x, In x a -> In x b -> False) -> NoDup (a ++ b)).
  { induction a as [|x a IH]; intros b Na Nb D; [exact Nb|]. inversion Na; subst. cbn [app]. constructor.
    - rewrite in_app_iff. intros [H|H]; [auto|]. apply (D x); [left|]; auto.
    - apply IH; auto. intros y Hy. apply D. right. auto. }
  assert (One : forall (b : bool) (x : nat), NoDup (if b then [] else [x])) by (intros [|] x; repeat constructor; auto).
  repeat apply App; try apply seq_NoDup; try apply One.
  - repeat constructor; cbn [In]; lia.
  - intros x. rewrite in_seq. destruct (Nat.eqb_spec ac 64); cbn [In]; lia.
  - intros x. rewrite in_app_iff, in_seq. destruct (Nat.eqb_spec cc 16), (Nat.eqb_spec ac 64); cbn [In]; lia.
  - intros x. rewrite !in_app_iff, !in_seq. destruct (Nat.eqb_spec cc 16), (Nat.eqb_spec ac 64); cbn [In]; lia.
  - intros x. rewrite !in_app_iff, !in_seq. destruct (Nat.eqb_spec cc 16), (Nat.eqb_spec ac 64); cbn [In]; lia.
Qed.
Lemma place_spec r l : forall out, place r out l = true <-> (NoDup (map (fun x => x mod r)%nat l) /\ forall x, In x l -> ~ In (x mod r)%nat out).
Proof.
  induction l as [|x l IH]; intros out; cbn [place map].
  - split; [intros _; split; [constructor|intros ? []]|reflexivity].
  - destruct (existsb (Nat.eqb (x mod r)%nat) out) eqn:E.
    + split; [discriminate|]. intros [_ H]. exfalso. apply (H x (or_introl eq_refl)). apply existsb_exists in E. destruct E as (y & Hy & Ey). apply Nat.eqb_eq in Ey. congruence.
    + assert (Nx : ~ In (x mod r)%nat out). { intros H. assert (existsb (Nat.eqb (x mod r)%nat) out = true) by (apply existsb_exists; exists (x mod r)%nat; split; [auto|apply Nat.eqb_refl]). congruence. }
      rewrite IH. split.
      * intros [A B]. split.
        -- constructor; auto. rewrite in_map_iff. intros (y & Ey & Hy). apply (B y Hy). left. auto.
        -- intros y [<-|Hy]; auto. intros H. apply (B y Hy). right. auto.
      * intros [A B]. inversion A as [|? ? A1 A2]; subst. split; auto. intros y Hy [H|H].
        -- apply A1. rewrite H. apply (in_map (fun x => x mod r)%nat). auto.
        -- apply (B y); auto. right. auto.
Qed.
Lemma nodup_inj {A B} (f : A -> B) l : NoDup l -> (NoDup (map f l) <-> (forall x y, In x l -> In y l -> f x = f y -> x = y)).
Proof.
  intros N. split.
  - induction l as [|a l IH]; intros H x y Hx Hy E; [contradiction|]. apply NoDup_cons_iff in N. destruct N as [N0 N]. cbn [map] in H. apply NoDup_cons_iff in H. destruct H as [H1 H2].
    destruct Hx as [->|Hx], Hy as [->|Hy]; auto.
    + exfalso. apply H1. rewrite E. apply in_map. auto.
    + exfalso. apply H1. rewrite <- E. apply in_map. auto.
  - induction l as [|a l IH]; intros H; [constructor|]. inversion N; subst. cbn [map]. constructor.
    + rewrite in_map_iff. intros (y & E & Hy). assert (y = a) by (apply H; [right|left|]; auto). subst. auto.
    + apply IH; auto. intros x y Hx Hy. apply H; right; auto.
Qed.
Lemma place_ok cc ac r : (cc <= 16)%nat -> (ac <= 64)%nat -> (1 <= r)%nat -> place r [] (used_dwords cc ac) = true <-> stride_ok cc ac r.
Proof.
  intros Hc Ha Hr. rewrite place_spec. rewrite (nodup_inj _ _ (used_nodup cc ac Hc Ha)). unfold stride_ok. split.
  - intros [H _]. split; auto. intros x y i j Hx Hy E. rewrite <- used_in in Hx, Hy by auto.
    assert (x = y).
    { apply H; auto. rewrite <- (Nat.mod_add x i r), <- (Nat.mod_add y j r) by lia. f_equal. lia. }
    subst. split; auto. nia.
  - intros [_ H]. split; [|intros x _ []]. intros x y Hx Hy E. rewrite used_in in Hx, Hy by auto.
    destruct (H x y (y / r) (x / r) Hx Hy)%nat; auto.
    pose proof (Nat.div_mod x r ltac:(lia)). pose proof (Nat.div_mod y r ltac:(lia)). lia.
Qed.
Lemma first_fit_spec used n : forall r,
  match first_fit used r n with
  | Some q => (r <= q < r + n)%nat /\ place q [] used = true /\ forall q', (r <= q' < q)%nat -> place q' [] used = false
  | None => forall q', (r <= q' < r + n)%nat -> place q' [] used = false
  end.
Proof.
  induction n as [|n IH]; intros r; cbn [first_fit]; [intros; lia|].
  destruct (place r [] used) eqn:E; [repeat split; auto; intros; lia|].
  specialize (IH (S r)). destruct (first_fit used (S r) n) as [q|].
  - destruct IH as (A & B & C). repeat split; auto; try lia. intros q' Hq. destruct (Nat.eq_dec q' r) as [->|]; auto. apply C. lia.
  - intros q' Hq. destruct (Nat.eq_dec q' r) as [->|]; auto. apply IH. lia.
Qed.
Lemma used_length cc ac : (cc < 16)%nat -> (ac < 64)%nat -> length (used_dwords cc ac) = (4 + 5 * cc + 8 * ac)%nat.
Proof.
  intros. unfold used_dwords. rewrite !app_length, !seq_length. destruct (Nat.eqb_spec cc 16), (Nat.eqb_spec ac 64); cbn [length]; lia.
Qed.
Lemma stride_len cc ac r : (cc < 16)%nat -> (ac < 64)%nat -> stride_ok cc ac r -> (4 + 5 * cc + 8 * ac <= r)%nat.
Proof.
  intros Hc Ha H. pose proof H as [Hr _]. apply place_ok in H; try lia. apply place_spec in H. destruct H as [N _].
  rewrite <- used_length by auto. rewrite <- (map_length (fun x => x mod r)%nat).
  assert (L : (length (map (fun x => x mod r)%nat (used_dwords cc ac)) <= length (seq 0 r))%nat); [|rewrite seq_length in L; exact L].
  apply NoDup_incl_length; auto. intros y Hy. apply in_map_iff in Hy. destruct Hy as (x & <- & _). apply in_seq. pose proof (Nat.mod_upper_bound x r ltac:(lia)). lia.
Qed.
Lemma stride_full cc ac : (cc <= 16)%nat -> (ac <= 64)%nat -> stride_ok cc ac 602.
Proof.
  intros Hc Ha. split; [lia|]. intros x y i j Hx Hy E.
  assert (B : forall z, matters cc ac z -> (z < 602)%nat) by (unfold matters; intros; lia).
  pose proof (B x Hx). pose proof (B y Hy). lia.
Qed.

Lemma size_counts : forall t, exists r, get_trigger_size t = 4 * Z.of_nat r /\
  let cc := count_conds t in let ac := count_acts t in
  (r <= 602)%nat /\ stride_ok cc ac r /\
  (forall r', (4 + 5 * cc + 8 * ac <= r' < r)%nat -> ~ stride_ok cc ac r') /\
  ((cc < 16)%nat -> (ac < 64)%nat -> forall r', stride_ok cc ac r' -> (r <= r')%nat).
Proof.
  intros t. unfold get_trigger_size, trigger_size. cbv zeta.
  assert (Hc : (count_conds t <= 16)%nat) by (unfold count_conds; eapply Nat.le_trans; [apply filter_length_le|rewrite seq_length; lia]).
  assert (Ha : (count_acts t <= 64)%nat) by (unfold count_acts; eapply Nat.le_trans; [apply filter_length_le|rewrite seq_length; lia]).
  set (cc := count_conds t) in *. set (ac := count_acts t) in *. clearbody cc ac. set (m := (4 + 5 * cc + 8 * ac)%nat).
  assert (Core : exists r, match first_fit (used_dwords cc ac) m (602 - m) with Some r => 4 * Z.of_nat r | None => 2408 end = 4 * Z.of_nat r /\
     (r <= 602)%nat /\ stride_ok cc ac r /\ forall r', (m <= r' < r)%nat -> ~ stride_ok cc ac r').
  { pose proof (first_fit_spec (used_dwords cc ac) (602 - m) m) as F. destruct (first_fit (used_dwords cc ac) m (602 - m)) as [r|].
    - destruct F as (A & B & C). exists r. split; [reflexivity|]. split; [lia|]. split; [apply place_ok; auto; lia|].
      intros r' Hr Q. apply place_ok in Q; auto; [|lia]. rewrite C in Q by auto. discriminate.
    - exists 602%nat. split; [reflexivity|]. split; [lia|]. split; [apply stride_full; auto|].
      intros r' Hr Q. apply place_ok in Q; auto; [|lia]. rewrite F in Q by lia. discriminate. }
  destruct Core as (r & E & A & B & C). exists r. split; [exact E|]. split; [exact A|]. split; [exact B|]. split; [exact C|].
  intros Hc' Ha' r' Hr'. destruct (Nat.le_gt_cases r r'); auto. exfalso. apply (C r'); auto.
  pose proof (stride_len cc ac r' Hc' Ha' Hr'). unfold m. lia.
Qed.
(* k of the numbers below n satisfy P *)
Inductive number (P : nat -> Prop) : nat -> nat -> Prop :=
| number_0 : number P 0 0
| number_y : forall n k, number P n k -> P n -> number P (S n) (S k)
| number_n : forall n k, number P n k -> ~ P n -> number P (S n) k.
(* the conditions and actions that count: neither unused nor Always / Comment *)
Definition cond_counts (t : bytes) (i : nat) : Prop := let ty := bat t (20 * Z.of_nat i + 15) in 1 <= ty /\ ty <> 22.
Definition act_counts (t : bytes) (i : nat) : Prop := let ty := bat t (320 + 32 * Z.of_nat i + 26) in 1 <= ty /\ ty <> 47.
Lemma number_filter (P : nat -> Prop) f n k : (forall i, f i = true <-> P i) -> number P n k -> k = length (filter f (seq 0 n)).
Proof.
  intros H N. induction N as [|n k N IH Pn|n k N IH Pn]; [reflexivity| |]; rewrite seq_S, filter_app, app_length, <- IH; cbn [Nat.add filter].
  - rewrite (proj2 (H n) Pn). cbn [length]. lia.
  - destruct (f n) eqn:E; [exfalso; apply Pn; apply H; exact E|cbn [length]; lia].
Qed.
(* the estimate is the smallest distance at which triggers do not disturb each other *)
Theorem C56_size : forall t cc ac, number (cond_counts t) 16 cc -> number (act_counts t) 64 ac ->
  exists r, get_trigger_size t = 4 * Z.of_nat r /\
  (r <= 602)%nat /\ stride_ok cc ac r /\
  (forall r', (4 + 5 * cc + 8 * ac <= r' < r)%nat -> ~ stride_ok cc ac r') /\
  ((cc < 16)%nat -> (ac < 64)%nat -> forall r', stride_ok cc ac r' -> (r <= r')%nat).
Proof.
  intros t cc ac Hc Ha.
  assert (Ec : cc = count_conds t).
  { unfold count_conds. apply (number_filter (cond_counts t)); auto. intros i. unfold cond_counts. rewrite (Z.mul_comm 20). lia. }
  assert (Ea : ac = count_acts t).
  { unfold count_acts. apply (number_filter (act_counts t)); auto. intros i. unfold act_counts. rewrite (Z.mul_comm 32). lia. }
  subst. exact (size_counts t).
Qed.
Example C56_case : trigger_size 1 1 = 132 /\ trigger_size 16 64 = 2384.
Proof. vm_compute. auto. Qed.

(* ---------- cases ---------- *)
(* a trigger given by some of its bytes *)
Definition tb (l : list (Z * Z)) : bytes :=
  map (fun k => match find (fun c => fst c =? Z.of_nat k) l with Some c => snd c | None => 0 end) (seq 0 seg_len).
Definition force1 (p : Z) : Z := if p <? 4 then 0 else 1.
Lemma force1_ok p : 0 <= force1 p <= 3.
Proof. unfold force1. destruct (p <? 4); lia. Qed.
(* player 1, preserved; force 2, not preserved; all players *)
Definition t1 := tb [(320 + 26, 45); (2368, 4); (2372, 1)].
Definition t2 := tb [(320 + 26, 9); (2372 + 19, 1)].
Definition t3 := tb [(320 + 26, 9); (2372 + 17, 1)].
(* inline code for player 1 *)
Definition tc := tb [(20, 0x4A); (21, 0x8D); (22, 0x97); (23, 0x10); (24, 1); (28, 65)].
Definition bytes_eqb (a b : bytes) : bool := Nat.eqb (length a) (length b) && forallb (fun c => fst c =? snd c) (combine a b).
Definition shape (l : list event) : list nat :=
  map (fun e => match e with ECode _ => 0 | ERaw t => if bytes_eqb t t1 then 1 else if bytes_eqb t t2 then 2 else if bytes_eqb t t3 then 3 else 9 end)%nat l.

Example C48_order_case :
  let sec := tc ++ t1 ++ t3 ++ t2 ++ t1 ++ [7] in
  let segs := segments (length sec) sec in
  let r := consecutive (fun _ _ => true) force1 sec in
  segs = [tc] ++ [t1; t3; t2; t1] /\
  map (fun t => match inline_player_code t with Some c => c | None => 0 end) segs = [1; 0; 0; 0; 0] /\
  forallb (fun t => negb (flags t =? 0x10000000)) segs = true /\
  (length (fst r) = 3 /\ length (snd r) = 6)%nat /\
  shape (out_events force1 (fst r) (snd r) 0) = [0; 1; 3; 1; 9]%nat /\
  shape (out_events force1 (fst r) (snd r) 5) = [3; 2; 9]%nat.
Proof. vm_compute. repeat split. Qed.
Example C48_one_by_one_case :
  let r := preprocess (fun i => negb (Nat.eqb i 1)) 0 [tc; t1; t3; t2; t1] [] in
  preserved_and_has_no_wait t1 = true /\ runs_for force1 (eff t1) 0 = true /\ runs_for force1 (eff t1) 1 = false /\
  preserved_and_has_no_wait t2 = false /\ preserved_and_has_no_wait t3 = false /\
  shape (out_events force1 (fst r) (snd r) 0) = [0; 1; 3; 1; 9]%nat.
Proof. vm_compute. repeat split. Qed.

(* inline code overtakes triggers standing before it: line 108-113 of ilcprocesstrig.py
   flushes the lists of the players in the trigger's player list, which is empty *)
Theorem C48_order_refuted : exists cut force sec p,
  (forall p, 0 <= force p <= 3) /\ 0 <= p <= 7 /\
  let segs := segments (length sec) sec in
  let r := consecutive cut force sec in
  Forall unmarked segs /\ fits (fst r) /\
  src_events force segs p = [ERaw t1; ECode (code_data tc)] /\
  out_events force (fst r) (snd r) p = [ECode (code_data tc); ERaw t1; ERaw blank].
Proof.
  exists (fun _ _ => true), force1, (t1 ++ tc), 0. split; [apply force1_ok|]. split; [lia|]. cbv zeta.
  assert (E : segments (length (t1 ++ tc)) (t1 ++ tc) = [t1; tc]) by (vm_compute; reflexivity). rewrite E.
  split; [repeat constructor; intros _; vm_compute; discriminate|].
  split; [vm_compute; discriminate|]. split; vm_compute; reflexivity.
Qed.
(* a preserved trigger of all players moved on its own runs twice: btinliner.py 71 has if where elif is meant *)
Theorem C48_twice_refuted : exists coin force t p,
  (forall p, 0 <= force p <= 3) /\ 0 <= p <= 7 /\ unmarked t /\
  let r := preprocess coin 0 [t] [] in
  fits (fst r) /\ src_events force [t] p = [ERaw t] /\ out_events force (fst r) (snd r) p = [ERaw t; ERaw t; ERaw blank].
Proof.
  set (t := tb [(320 + 26, 45); (2368, 4); (2372 + 17, 1)]).
  exists (fun _ => true), force1, t, 0. split; [apply force1_ok|]. split; [lia|]. split; [intros _; vm_compute; discriminate|].
  cbv zeta. split; [vm_compute; discriminate|]. split; vm_compute; reflexivity.
Qed.
(* a preserved trigger that nobody executes stops the conversion (max of an empty list) *)
Theorem C48_nobody_refuted : exists force t p, (forall p, 0 <= force p <= 3) /\ 0 <= p <= 7 /\ one_runs force t p = None.
Proof. exists force1, (tb [(2368, 4)]), 0. split; [apply force1_ok|]. split; [lia|]. vm_compute. reflexivity. Qed.
(* triggers with Wait count as having none: btinliner.py 40 looks at bit 1 of the flags of an action,
   which marks disabled actions (rawtrigger/action.py: Disabled sets flags 2) *)
Theorem C48_wait_refuted : exists t, bat t (320 + 26) = 4 /\ bat t (320 + 28) = 0 /\ preserved_and_has_no_wait t = true.
Proof. exists (tb [(320, 1); (320 + 26, 4); (2368, 4)]). vm_compute. auto. Qed.

(* the hypotheses of C56_size have a solution for every trigger *)
Lemma number_is (P : nat -> Prop) f n : (forall i, f i = true <-> P i) -> number P n (length (filter f (seq 0 n))).
Proof.
  intros H. induction n as [|n IH]; [constructor|]. rewrite seq_S, filter_app, app_length. cbn [Nat.add filter].
  destruct (f n) eqn:E; cbn [length].
  - rewrite Nat.add_1_r. apply number_y; [exact IH|]. apply H. exact E.
  - rewrite Nat.add_0_r. apply number_n; [exact IH|]. intros Q. apply H in Q. congruence.
Qed.
Example C56_counts : forall t, exists cc ac, number (cond_counts t) 16 cc /\ number (act_counts t) 64 ac.
Proof.
  intros t. exists (count_conds t), (count_acts t). unfold count_conds, count_acts.
  split; apply number_is; intros i; unfold cond_counts, act_counts; rewrite ?(Z.mul_comm 20), ?(Z.mul_comm 32); lia.
Qed.

(* ---------- the inline code, the test for waiting, the dispatching triggers ---------- *)
(* the text of inline code: bytes 28 to 319 and 352 to 2371 of the trigger *)
Theorem C48_code_bytes : forall t, length t = Z.to_nat 2400 ->
  Z.of_nat (length (code_data t)) = 292 + 2020 /\
  (forall i, 0 <= i < 292 -> bat (code_data t) i = bat t (28 + i)) /\
  (forall i, 0 <= i < 2020 -> bat (code_data t) (292 + i) = bat t (352 + i)).
Proof.
  intros t L. unfold code_data, bat.
  assert (L1 : length (firstn (320 - 28) (skipn 28 t)) = 292%nat) by (rewrite firstn_length, skipn_length; lia).
  assert (FS : forall n k i, (i < n)%nat -> nth i (firstn n (skipn k t)) 0 = nth (k + i) t 0).
  { clear. intros n k i Hi. revert n i Hi. induction k as [|k IH] in t |- *; intros n i Hi.
    - cbn [skipn Nat.add]. revert n t Hi. induction i as [|i IHi]; intros n t Hi; destruct n, t; try lia; auto. cbn [firstn nth]. apply IHi. lia.
    - destruct t as [|x t]; cbn [skipn]; [rewrite firstn_nil; destruct i; reflexivity|]. rewrite IH by auto. reflexivity. }
  split; [rewrite app_length, L1, firstn_length, skipn_length; lia|]. split; intros i Hi.
  - rewrite app_nth1 by lia. rewrite FS by lia. f_equal. lia.
  - rewrite app_nth2 by lia. rewrite L1, FS by lia. f_equal. lia.
Qed.
(* the test as it is written (see C48_wait_refuted): no action marked by bit 1 is Wait
   or Transmission, and the trigger is preserved by its flag or by such an action *)
Definition marked (t : bytes) (i : Z) : Prop := Z.testbit (bat t (320 + 32 * i + 28)) 1 = true.
Lemma wait_scan_spec t n : forall i e,
  match wait_scan t i n e with
  | None => exists j, i <= j < i + Z.of_nat n /\ marked t j /\ (bat t (320 + 32 * j + 26) = 4 \/ bat t (320 + 32 * j + 26) = 7)
  | Some e' => (forall j, i <= j < i + Z.of_nat n -> marked t j -> bat t (320 + 32 * j + 26) <> 4 /\ bat t (320 + 32 * j + 26) <> 7) /\
     (e' = false <-> e = false \/ exists j, i <= j < i + Z.of_nat n /\ marked t j /\ bat t (320 + 32 * j + 26) = 3)
  end.
Proof.
  induction n as [|n IH]; intros i e; cbn [wait_scan].
  - split; [intros; lia|]. split; auto. intros [H|(j & H & _)]; [auto|lia].
  - destruct (Z.testbit (bat t (320 + 32 * i + 28)) 1) eqn:M.
    + destruct ((bat t (320 + 32 * i + 26) =? 4) || (bat t (320 + 32 * i + 26) =? 7)) eqn:W.
      * exists i. split; [lia|]. split; [exact M|lia].
      * specialize (IH (i + 1) (if bat t (320 + 32 * i + 26) =? 3 then false else e)).
        destruct (wait_scan t (i + 1) n _) as [e'|].
        -- destruct IH as [A B]. split.
           ++ intros j Hj Mj. destruct (Z.eq_dec j i) as [->|]; [lia|apply A; auto; lia].
           ++ rewrite B. split.
              ** intros [H|(j & Hj & Mj & Ej)].
                 --- destruct (Z.eqb_spec (bat t (320 + 32 * i + 26)) 3); [right; exists i; repeat split; auto; lia|auto].
                 --- right. exists j. repeat split; auto; lia.
              ** intros [H|(j & Hj & Mj & Ej)].
                 --- left. destruct (bat t (320 + 32 * i + 26) =? 3); auto.
                 --- destruct (Z.eq_dec j i) as [->|]; [left; rewrite Ej; reflexivity|right; exists j; repeat split; auto; lia].
        -- destruct IH as (j & Hj & Mj & Ej). exists j. repeat split; auto; lia.
    + assert (NM : ~ marked t i) by (unfold marked; congruence).
      specialize (IH (i + 1) e). destruct (wait_scan t (i + 1) n e) as [e'|].
      * destruct IH as [A B]. split.
        -- intros j Hj Mj. destruct (Z.eq_dec j i) as [->|]; [contradiction|apply A; auto; lia].
        -- rewrite B. split; (intros [H|(j & Hj & Mj & Ej)]; [auto|right; exists j; split; [|split; assumption]]); [lia|].
           destruct (Z.eq_dec j i) as [->|]; [contradiction|lia].
      * destruct IH as (j & Hj & Mj & Ej). exists j. repeat split; auto; lia.
Qed.
Theorem C48_wait_test : forall t, preserved_and_has_no_wait t = true <->
  (forall i, 0 <= i < 64 -> marked t i -> bat t (320 + 32 * i + 26) <> 4 /\ bat t (320 + 32 * i + 26) <> 7) /\
  (Z.testbit (bat t (320 + 2048)) 2 = true \/ exists i, 0 <= i < 64 /\ marked t i /\ bat t (320 + 32 * i + 26) = 3).
Proof.
  intros t. unfold preserved_and_has_no_wait. pose proof (wait_scan_spec t 64 0 true) as W.
  change (0 + Z.of_nat 64) with 64 in W.
  destruct (wait_scan t 0 64 true) as [e|].
  - destruct W as [A B]. destruct e, (Z.testbit (bat t (320 + 2048)) 2) eqn:P; cbn [andb negb]; split; auto; try (intros; discriminate).
    + intros [_ [H|H]]; [discriminate|]. destruct B as [_ B]. discriminate (B (or_intror H)).
    + intros _. split; auto. right. destruct B as [B _]. destruct (B eq_refl) as [H|H]; [discriminate|exact H].
  - split; [discriminate|]. intros [A _]. destruct W as (j & Hj & Mj & Ej). destruct (A j Hj Mj). lia.
Qed.
(* a dispatching trigger: no conditions; four actions SetDeaths(0, SetTo, 0, 0), which
   inj_finalizer.py overwrites; then no action; the number of the function in dword 0 *)
Theorem C48_dispatcher : forall id pc, 0 <= id < 2^32 -> let t := new_trigger id pc in
  length t = Z.to_nat 2400 /\ dword t 0 = id /\ flags t = 0x10000000 /\
  (forall i, 0 <= i < 27 -> eff t i = Z.testbit pc i) /\ eff t 27 = false /\
  (forall i, 0 <= i < 16 -> bat t (20 * i + 15) = 0) /\
  (forall i, 0 <= i < 4 ->
     bat t (320 + 32 * i + 26) = 45 /\ bat t (320 + 32 * i + 27) = 7 /\ bat t (320 + 32 * i + 28) = 0x14 /\
     (forall j, 0 <= j < 32 -> j <> 26 -> j <> 27 -> j <> 28 -> bat t (320 + 32 * i + j) = 0)) /\
  (forall i, 4 <= i < 64 -> bat t (320 + 32 * i + 26) = 0).
Proof.
  intros id pc Hid t. unfold t. split; [unfold new_trigger; rewrite map_length, seq_length; reflexivity|].
  split; [apply nt_id; exact Hid|]. split; [apply nt_flags|]. split; [intros; apply nt_eff; auto|].
  split; [unfold eff; rewrite nt_byte by lia; reflexivity|].
  split; [|split].
  - intros i Hi. rewrite nt_byte by lia. unfold disp_byte.
    destruct (Z.ltb_spec (20 * i + 15) 4); [lia|]. destruct (Z.leb_spec 320 (20 * i + 15)); [lia|]. cbn [andb].
    destruct (Z.eqb_spec (20 * i + 15) 2371); [lia|]. destruct (Z.leb_spec 2372 (20 * i + 15)); [lia|]. reflexivity.
  - intros i Hi.
    assert (G : forall j, 0 <= j < 32 -> bat (new_trigger id pc) (320 + 32 * i + j) = if j =? 26 then 45 else if j =? 27 then 7 else if j =? 28 then 20 else 0).
    { intros j Hj. rewrite nt_byte by lia. unfold disp_byte.
      destruct (Z.ltb_spec (320 + 32 * i + j) 4); [lia|]. destruct (Z.leb_spec 320 (320 + 32 * i + j)); [|lia].
      destruct (Z.ltb_spec (320 + 32 * i + j) (320 + 32 * 4)); [|lia]. cbn [andb].
      replace ((320 + 32 * i + j - 320) mod 32) with j by (apply Z.mod_unique with i; lia). reflexivity. }
    rewrite !G by lia. repeat split; auto. intros j Hj H1 H2 H3. rewrite G by lia.
    destruct (Z.eqb_spec j 26), (Z.eqb_spec j 27), (Z.eqb_spec j 28); try lia; reflexivity.
  - intros i Hi. rewrite nt_byte by lia. unfold disp_byte.
    destruct (Z.ltb_spec (320 + 32 * i + 26) 4); [lia|]. destruct (Z.leb_spec 320 (320 + 32 * i + 26)); [|lia].
    destruct (Z.ltb_spec (320 + 32 * i + 26) (320 + 32 * 4)); [lia|]. cbn [andb].
    destruct (Z.eqb_spec (320 + 32 * i + 26) 2371); [lia|]. destruct (Z.leb_spec 2372 (320 + 32 * i + 26)); [lia|]. reflexivity.
Qed.

Print Assumptions C48_code_bytes.
Print Assumptions C48_wait_test.
Print Assumptions C48_dispatcher.
Print Assumptions C48_order_partial.
Print Assumptions C48_order.
Print Assumptions C48_one_by_one.
Print Assumptions C48_shared.
Print Assumptions C48_order_refuted.
Print Assumptions C48_twice_refuted.
Print Assumptions C48_nobody_refuted.
Print Assumptions C48_wait_refuted.
Print Assumptions C56_size.
