(* C82: line tables of compiled epScript modules. *)
From Coq Require Import ZArith List Bool Lia.
From Verif Require Import LineModel.
Import ListNotations.
Open Scope Z_scope.

(* ---------- specification: how Python reads a table (Objects/locations.md), entries without columns ---------- *)
Fixpoint varint (l : list Z) : option (Z * list Z) :=
  match l with
  | [] => None
  | b :: r => if b <? 64 then Some (b, r) else match varint r with Some (v, r') => Some (b - 64 + 64 * v, r') | None => None end
  end.
Definition signed (u : Z) : Z := if u mod 2 =? 1 then - (u / 2) else u / 2.
(* the line of every code unit *)
Fixpoint read_table (fuel : nat) (line : Z) (l : list Z) : option (list Z) :=
  match fuel with
  | O => None
  | S f =>
      match l with
      | [] => Some []
      | h :: r =>
          if h / 8 =? 16 + 13 then
            match varint r with
            | Some (u, r') => match read_table f (line + signed u) r' with Some t => Some (repeat (line + signed u) (Z.to_nat (h mod 8 + 1)) ++ t) | None => None end
            | None => None
            end
          else None
      end
  end.
Definition lines (firstlineno : Z) (table : list Z) : option (list Z) := read_table (S (length table)) firstlineno table.
(* the line each instruction belongs to, with its size *)
Fixpoint placed (cur : Z) (instrs : list (option Z * nat)) : list (Z * nat) :=
  match instrs with
  | [] => []
  | (s, n) :: r => let l := match s with Some l => l | None => cur end in (l, n) :: placed l r
  end.
Definition wanted (p : list (Z * nat)) : list Z := concat (map (fun x => repeat (fst x) (snd x)) p).
(* every instruction at the line of the next one *)
Fixpoint late (p : list (Z * nat)) : list Z :=
  match p with
  | [] => []
  | (l, n) :: r => repeat (match r with [] => l | (l', _) :: _ => l' end) n ++ late r
  end.

(* ================= proofs ================= *)
Lemma varint_ok : forall f num rest, 0 <= num < 2 ^ Z.of_nat f -> (0 < f)%nat -> varint (varint_loop f num ++ rest) = Some (num, rest) /\ (0 < length (varint_loop f num))%nat.
Proof.
  induction f as [|f IH]; intros num rest H Hf; [lia|]. cbn [varint_loop]. rewrite Nat2Z.inj_succ, Z.pow_succ_r in H by lia. destruct (Z.leb_spec 0x40 num) as [L|L].
  - rewrite Z.shiftr_div_pow2 by lia. change 0x3F with (Z.ones 6). rewrite Z.land_ones by lia. change (2 ^ 6) with 64.
    pose proof (Z.mod_pos_bound num 64 ltac:(lia)) as M. pose proof (Z.div_mod num 64 ltac:(lia)) as D.
    assert (E : Z.lor (num mod 64) 64 = num mod 64 + 64).
    { assert (Q : Z.land (num mod 64) 64 = 0); [|rewrite <- Z.lxor_lor, <- Z.add_nocarry_lxor by exact Q; reflexivity]. apply Z.bits_inj'. intros i Hi. rewrite Z.land_spec, Z.bits_0. change 64 with (2 ^ 6) at 2. rewrite Z.pow2_bits_eqb by lia.
      destruct (Z.eqb_spec 6 i) as [<-|]; [|apply andb_false_r]. change 64 with (2 ^ 6). rewrite Z.mod_pow2_bits_high by lia. reflexivity. }
    rewrite E. assert (Q : num / 64 < 2 ^ Z.of_nat f) by nia. assert (F0 : (0 < f)%nat) by (destruct f; [change (2 ^ Z.of_nat 0) with 1 in *; lia|lia]).
    destruct (IH (num / 64) rest ltac:(lia) F0) as (V & _). cbn [app varint]. replace (num mod 64 + 64 <? 64) with false by (symmetry; apply Z.ltb_ge; lia). rewrite V. split; [do 2 f_equal; lia|cbn; lia].
  - rewrite Z.lor_0_r. cbn [app varint]. replace (num <? 64) with true by (symmetry; apply Z.ltb_lt; lia). split; [reflexivity|cbn; lia].
Qed.
Lemma svarint_ok d rest : exists u, varint (encode_svarint d ++ rest) = Some (u, rest) /\ signed u = d.
Proof.
  unfold encode_svarint. set (u := if d <? 0 then _ else _). assert (U : 0 <= u /\ signed u = d).
  { unfold u, signed. destruct (Z.ltb_spec d 0).
    - rewrite Z.shiftl_mul_pow2 by lia. assert (E : Z.lor (- d * 2 ^ 1) 1 = 2 * (- d) + 1).
      { change (2 ^ 1) with 2. rewrite (Z.mul_comm (- d)). assert (Q : Z.land (2 * - d) 1 = 0); [|rewrite <- Z.lxor_lor, <- Z.add_nocarry_lxor by exact Q; reflexivity]. change 1 with (Z.ones 1). rewrite Z.land_ones by lia. change (2 ^ 1) with 2. rewrite Z.mul_comm. apply Z.mod_mul. lia. }
      rewrite E. replace ((2 * - d + 1) mod 2) with 1 by (apply (Z.mod_unique _ _ (- d)); lia). cbn [Z.eqb Pos.eqb]. replace ((2 * - d + 1) / 2) with (- d) by (apply (Z.div_unique _ _ _ 1); lia). lia.
    - rewrite Z.shiftl_mul_pow2 by lia. change (2 ^ 1) with 2. rewrite Z.mod_mul, Z.div_mul by lia. cbn [Z.eqb]. lia. }
  exists u. split; [|tauto]. unfold encode_varint. apply varint_ok; [|lia]. split; [tauto|]. rewrite Nat2Z.inj_succ, Z2Nat.id by apply Z.log2_nonneg. destruct (Z.eq_dec u 0) as [->|]; [cbn; lia|]. apply Z.log2_spec. lia.
Qed.
Lemma entry_ok f d n rest line : (0 < n <= 8)%nat ->
  read_table (S f) line (encode_entries d n ++ rest) = match read_table f (line + d) rest with Some t => Some (repeat (line + d) n ++ t) | None => None end.
Proof.
  intros Hn. unfold encode_entries. cbn [entries_loop]. replace (Nat.eqb n 0) with false by (symmetry; apply Nat.eqb_neq; lia). replace (Nat.leb n 8) with true by (symmetry; apply Nat.leb_le; lia).
  cbn [app read_table]. destruct (svarint_ok d rest) as (u & -> & ->).
  assert (E : Z.lor 232 (Z.of_nat n - 1) / 8 = 29 /\ Z.lor 232 (Z.of_nat n - 1) mod 8 + 1 = Z.of_nat n) by (do 9 (destruct n as [|n]; [try lia; split; reflexivity|]); lia).
  destruct E as (E1 & E2). rewrite E1, E2, Nat2Z.id. reflexivity.
Qed.
Lemma asm_ok : forall instrs cur n c f, (0 < n <= 8)%nat -> Forall (fun i => (0 < snd i <= 8)%nat) instrs -> (length instrs + 1 < f)%nat ->
  read_table f (cur + c) (assemble cur n instrs) = Some (map (fun x => x + c) (late ((cur, n) :: placed cur instrs))).
Proof.
  induction instrs as [|[s k] r IH]; intros cur n c f Hn HF Hf; (destruct f as [|f]; [lia|]).
  - cbn [assemble]. rewrite <- (app_nil_r (encode_entries 0 n)). rewrite entry_ok by exact Hn. rewrite Z.add_0_r. destruct f as [|f]; [cbn in Hf; lia|]. cbn [read_table late placed]. rewrite !app_nil_r. f_equal.
    clear. induction n as [|n IH]; [reflexivity|]. cbn. f_equal. exact IH.
  - cbn [assemble]. set (d := match s with Some l => l - cur | None => 0 end). set (l := match s with Some l => l | None => cur end). assert (DL : cur + c + d = l + c) by (unfold d, l; destruct s; lia).
    assert (Hk : (0 < k <= 8)%nat) by (inversion HF; assumption). assert (HR : Forall (fun i : option Z * nat => (0 < snd i <= 8)%nat) r) by (inversion HF; assumption).
    rewrite entry_ok by exact Hn. rewrite DL. cbn [length] in Hf. rewrite (IH l k c f Hk HR ltac:(lia)). cbn [placed]. fold l. cbn [late]. rewrite !map_app. f_equal. f_equal.
    clear. induction n as [|n IH]; [reflexivity|]. cbn. f_equal. exact IH.
Qed.
Lemma entries_len d n : (0 < n)%nat -> (0 < length (encode_entries d n))%nat.
Proof. intros H. unfold encode_entries. cbn [entries_loop]. destruct (Nat.eqb_spec n 0); [lia|]. destruct (Nat.leb n 8); cbn; lia. Qed.
Lemma asm_len : forall instrs cur n, (0 < n)%nat -> Forall (fun i => (0 < snd i <= 8)%nat) instrs -> (length instrs < length (assemble cur n instrs))%nat.
Proof.
  induction instrs as [|[s k] r IH]; intros cur n Hn HF; cbn [assemble length].
  - apply entries_len, Hn.
  - assert (Hk : (0 < k <= 8)%nat) by (inversion HF; assumption). assert (HR : Forall (fun i : option Z * nat => (0 < snd i <= 8)%nat) r) by (inversion HF; assumption).
    rewrite app_length. match goal with |- context [encode_entries ?d n] => pose proof (entries_len d n Hn) end. match goal with |- context [assemble ?l k r] => pose proof (IH l k ltac:(lia) HR) end. lia.
Qed.
(* C82: with instructions of at most 8 code units the table is well formed and has a line for every code unit, but each
   instruction gets the line of the next one, moved by the distance between the first line and the line of the first instruction *)
Theorem C82_lines first s n instrs : let p := placed first ((s, n) :: instrs) in Forall (fun i => (0 < snd i <= 8)%nat) ((s, n) :: instrs) ->
  lines first (linetable first ((s, n) :: instrs)) = Some (map (fun x => x + (first - match s with Some l => l | None => first end)) (late p)).
Proof.
  intros p HF. assert (Hn : (0 < n <= 8)%nat) by (inversion HF; assumption). assert (HR : Forall (fun i : option Z * nat => (0 < snd i <= 8)%nat) instrs) by (inversion HF; assumption).
  unfold p, linetable, lines. cbn [assemble placed]. set (l := match s with Some l => l | None => first end). unfold encode_entries. cbn [entries_loop Nat.eqb app].
  replace first with (l + (first - l)) at 1 by lia. apply asm_ok; [exact Hn|exact HR|]. pose proof (asm_len instrs l n ltac:(lia) HR). lia.
Qed.
Print Assumptions C82_lines.
(* C82: right when all instructions are on the first line *)
Theorem C82_one_line first s n instrs : Forall (fun i => (0 < snd i <= 8)%nat) ((s, n) :: instrs) -> Forall (fun x => fst x = first) (placed first ((s, n) :: instrs)) ->
  lines first (linetable first ((s, n) :: instrs)) = Some (wanted (placed first ((s, n) :: instrs))).
Proof.
  intros HF HP. rewrite C82_lines by exact HF. f_equal. assert (E : match s with Some l => l | None => first end = first) by (inversion HP; assumption). rewrite E, Z.sub_diag.
  rewrite (map_ext _ (fun x => x)) by (intros; lia). rewrite map_id. revert HP. generalize (placed first ((s, n) :: instrs)). induction l as [|[a k] r IH]; intros HP; [reflexivity|].
  assert (Ha : a = first) by (inversion HP; assumption). assert (HR : Forall (fun x => fst x = first) r) by (inversion HP; assumption). cbn [late]. unfold wanted in *. cbn [map concat fst snd]. rewrite (IH HR). f_equal. f_equal.
  destruct r as [|[b j] r]; [reflexivity|]. assert (Hb : b = first) by (inversion HR; assumption). congruence.
Qed.
Print Assumptions C82_one_line.
(* Two instructions on lines 1 and 2: the first one is reported at line 2 *)
Theorem C82_late_refuted : let instrs := [(Some 1, 1%nat); (Some 2, 1%nat)] in Forall (fun i => (0 < snd i <= 8)%nat) instrs /\ wanted (placed 1 instrs) = [1; 2] /\ lines 1 (linetable 1 instrs) = Some [2; 2].
Proof. split; [repeat constructor|]. split; reflexivity. Qed.
Print Assumptions C82_late_refuted.
(* LOAD_METHOD has 11 code units: the step to the next line is made twice, and all later lines are wrong *)
Theorem C82_long_refuted : let instrs := [(Some 1, 11%nat); (Some 5, 2%nat)] in wanted (placed 1 instrs) = repeat 1 11 ++ repeat 5 2 /\
  lines 1 (linetable 1 instrs) = Some (repeat 5 8 ++ repeat 9 5).
Proof. split; reflexivity. Qed.
Print Assumptions C82_long_refuted.
(* ---------- a concrete case: a step back over many lines ---------- *)
Example ex_line : linetable 1 [(Some 1, 1%nat); (None, 2%nat); (Some 100, 1%nat); (Some 2, 3%nat)] = [232; 0; 233; 0x46; 3; 232; 0x45; 3; 234; 0] /\
  lines 1 [232; 0; 233; 0x46; 3; 232; 0x45; 3; 234; 0] = Some [1; 100; 100; 2; 2; 2; 2].
Proof. split; reflexivity. Qed.
