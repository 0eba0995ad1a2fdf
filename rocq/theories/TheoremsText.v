(** C87: texts. *)
From Coq Require Import Ascii DecimalString DecimalPos DecimalN.
From Verif Require Import Base BaseFacts SpecText Text MpcAtoms MpcTree MpcBlock Schemes Api.
Local Open Scope nat_scope.

(** ** Hexadecimal *)
Definition nibbles : list N := map N.of_nat (seq 0 16).
Lemma nibbles_in n : (n < 16)%N -> In n nibbles.
Proof. intros L. apply in_map_iff. exists (N.to_nat n). split; [apply N2Nat.id|]. apply in_seq. lia. Qed.
Lemma digit_alphabet n : (n < 16)%N -> String.get (N.to_nat n) hex_alphabet = Some (digit n).
Proof.
  intros L. apply nibbles_in in L.
  assert (F : Forall (fun n => String.get (N.to_nat n) hex_alphabet = Some (digit n)) nibbles) by (repeat constructor).
  rewrite Forall_forall in F. exact (F n L).
Qed.
Lemma digit_back n : (n < 16)%N -> digit_value (digit n) = Some n.
Proof.
  intros L. apply nibbles_in in L.
  assert (F : Forall (fun n => digit_value (digit n) = Some n) nibbles) by (repeat constructor).
  rewrite Forall_forall in F. exact (F n L).
Qed.
Lemma digit_value_lower a v : digit_value a = Some v <-> (v < 16)%N /\ digit v = lower_char a.
Proof.
  assert (F : forall a, match digit_value a with
                        | Some v => (v < 16)%N /\ digit v = lower_char a
                        | None => forallb (fun v => negb (Ascii.eqb (digit v) (lower_char a))) nibbles = true
                        end).
  { clear. intros [[] [] [] [] [] [] [] []]; vm_compute; first [reflexivity | split; reflexivity]. }
  specialize (F a). split.
  - intros E. rewrite E in F. exact F.
  - intros [L E]. destruct (digit_value a) as [w|].
    + destruct F as [L' E']. f_equal. rewrite <- E in E'. apply (f_equal digit_value) in E'.
      rewrite !digit_back in E' by assumption. congruence.
    + exfalso. rewrite forallb_forall in F. specialize (F v (nibbles_in v L)). rewrite E, Ascii.eqb_refl in F. discriminate.
Qed.

Lemma byte_halves b : (Byte.to_N b / 16 < 16 /\ Byte.to_N b mod 16 < 16)%N.
Proof.
  split; [|apply N.mod_lt; discriminate]. apply N.div_lt_upper_bound; [discriminate|]. change (16 * 16)%N with 256%N. apply byte_to_N_lt.
Qed.
Lemma bytes_text_hex l : hex_of l (bytes_text l).
Proof.
  induction l as [|b l IH]; cbn [bytes_text]; constructor; try exact IH; apply digit_alphabet; apply byte_halves.
Qed.
Lemma hex_of_fun l s : hex_of l s -> s = bytes_text l.
Proof.
  induction 1 as [|b l h lo s E1 E2 _ IH]; [reflexivity|]. cbn [bytes_text].
  rewrite digit_alphabet in E1 by apply byte_halves. rewrite digit_alphabet in E2 by apply byte_halves. congruence.
Qed.
Lemma bytes_text_length l : String.length (bytes_text l) = 2 * length l.
Proof. induction l as [|b l IH]; cbn [bytes_text String.length length]; [reflexivity|]. lia. Qed.
Lemma two_step (P : string -> Prop) : P ""%string -> (forall a, P (String a "")) -> (forall a b s, P s -> P (String a (String b s))) ->
  forall s, P s.
Proof.
  intros P0 P1 P2 s. assert (P s /\ forall a, P (String a s)); [|tauto].
  induction s as [|c s [IH1 IH2]]; [split; [exact P0|exact P1]|]. split; [apply IH2|]. intros a. apply P2, IH1.
Qed.
Lemma parse_iff s : forall l, bytes_parse s = Some l <-> lower s = bytes_text l.
Proof.
  induction s as [|a|a b s IH] using two_step; intros l.
  - cbn. split; [intros [= <-]; reflexivity|]. destruct l; [reflexivity|discriminate].
  - cbn. split; [discriminate|]. destruct l; discriminate.
  - cbn [bytes_parse lower]. split.
    + destruct (digit_value a) as [h|] eqn:EA; [|discriminate]. destruct (digit_value b) as [lo|] eqn:EB; [|discriminate].
      destruct (bytes_parse s) as [r|] eqn:ES; [|discriminate]. intros EL.
      assert (l = byte_of_N (16 * h + lo)%N :: r) as -> by congruence. clear EL.
      apply digit_value_lower in EA as [LA <-]. apply digit_value_lower in EB as [LB <-]. cbn [bytes_text].
      assert (TN : Byte.to_N (byte_of_N (16 * h + lo)) = (16 * h + lo)%N) by (rewrite byte_of_N_to_N; apply N.mod_small; lia). rewrite TN.
      replace ((16 * h + lo) / 16)%N with h by (rewrite (N.mul_comm 16), N.div_add_l, N.div_small by lia; lia).
      replace ((16 * h + lo) mod 16)%N with lo
        by (rewrite N.add_comm, (N.mul_comm 16), N.mod_add by lia; symmetry; apply N.mod_small; lia).
      f_equal. f_equal. apply IH. reflexivity.
    + destruct l as [|x l]; [discriminate|]. cbn [bytes_text]. intros E. injection E as EA EB ES.
      destruct (byte_halves x) as [L1 L2].
      assert (DA : digit_value a = Some (Byte.to_N x / 16)%N) by (apply digit_value_lower; split; [exact L1|congruence]).
      assert (DB : digit_value b = Some (Byte.to_N x mod 16)%N) by (apply digit_value_lower; split; [exact L2|congruence]).
      rewrite DA, DB. apply IH in ES. rewrite ES. do 2 f_equal.
      rewrite <- N.div_mod by discriminate. apply byte_of_N_of.
Qed.

Lemma c87_text : forall x, hex_of (b32 x) (id_text x) /\ String.length (id_text x) = 64 /\
  (forall s, hex_of (b32 x) s -> s = id_text x).
Proof.
  intros x. split; [apply bytes_text_hex|]. split; [|apply hex_of_fun].
  unfold id_text. rewrite bytes_text_length, b32_length. reflexivity.
Qed.
Lemma c87_parse : forall s x, id_parse s = Some x <-> hex_of (b32 x) (lower s).
Proof.
  intros s x. unfold id_parse. split.
  - destruct (bytes_parse s) as [l|] eqn:E; [|discriminate]. intros F. apply parse_iff in E. rewrite E.
    assert (l = b32 x) as -> by (unfold b32_of in F; destruct (bool_dec _ true); [injection F as <-; reflexivity|discriminate]).
    apply bytes_text_hex.
  - intros HX. apply hex_of_fun in HX. apply parse_iff in HX. rewrite HX.
    unfold b32_of. destruct (bool_dec (length (b32 x) =? 32) true) as [e|n].
    + f_equal. apply b32_inj. reflexivity.
    + exfalso. apply n. rewrite b32_length. reflexivity.
Qed.
Lemma digit_lower n : (n < 16)%N -> lower_char (digit n) = digit n.
Proof.
  intros L. apply nibbles_in in L.
  assert (F : Forall (fun n => lower_char (digit n) = digit n) nibbles) by (repeat constructor).
  rewrite Forall_forall in F. exact (F n L).
Qed.
Lemma lower_text l : lower (bytes_text l) = bytes_text l.
Proof. induction l as [|b l IH]; cbn [bytes_text lower]; [reflexivity|]. rewrite IH, !digit_lower by apply byte_halves. reflexivity. Qed.
Lemma c87_roundtrip : forall x, id_parse (id_text x) = Some x.
Proof. intros x. apply c87_parse. unfold id_text. rewrite lower_text. apply bytes_text_hex. Qed.
Lemma c87_slice : forall l x, b32_of l = Some x <-> l = b32 x.
Proof.
  intros l x. unfold b32_of. destruct (bool_dec (length l =? 32) true) as [e|n].
  - split; [intros [= <-]; reflexivity|]. intros ->. f_equal. apply b32_inj. reflexivity.
  - split; [discriminate|]. intros ->. exfalso. apply n. rewrite b32_length. reflexivity.
Qed.

(** ** Error texts *)
Lemma id_text_inj a b : id_text a = id_text b -> a = b.
Proof. intros E. pose proof (c87_roundtrip a) as R. rewrite E, c87_roundtrip in R. congruence. Qed.
Lemma app_inv_head_s p a b : (p ++ a)%string = (p ++ b)%string -> a = b.
Proof. induction p as [|c p IH]; cbn; [auto|]. intros [= E]. auto. Qed.
Lemma app_inv_len_s a b c d : String.length a = String.length c -> (a ++ b)%string = (c ++ d)%string -> a = c /\ b = d.
Proof.
  revert c; induction a as [|x a IH]; intros [|y c] L E; cbn in *; try discriminate; [auto|].
  injection E as -> E. destruct (IH c (eq_add_S _ _ L) E) as [-> ->]. auto.
Qed.
Lemma id_app a b c d : (id_text a ++ b)%string = (id_text c ++ d)%string -> a = c /\ b = d.
Proof.
  intros E. apply app_inv_len_s in E as [E1 E2]; [|destruct (c87_text a) as (_ & -> & _); destruct (c87_text c) as (_ & -> & _); reflexivity].
  split; [apply id_text_inj; exact E1|exact E2].
Qed.
Lemma to_uint_nonnil n : N.to_uint n <> Decimal.Nil.
Proof. destruct n; [discriminate|apply DecimalPos.Unsigned.to_uint_nonnil]. Qed.
Lemma num_text_inj a b : num_text a = num_text b -> a = b.
Proof.
  intros E. apply (f_equal NilZero.uint_of_string) in E. unfold num_text in E.
  rewrite !NilZero.usu in E by apply to_uint_nonnil. injection E as E.
  apply (f_equal N.of_uint) in E. rewrite !DecimalN.Unsigned.of_to in E. exact E.
Qed.
Definition is_digit (a : ascii) : bool := match a with
  | "0" | "1" | "2" | "3" | "4" | "5" | "6" | "7" | "8" | "9" => true | _ => false end%char.
Fixpoint all_digits (s : string) : bool := match s with EmptyString => true | String a r => is_digit a && all_digits r end.
Lemma uint_digits d : all_digits (NilEmpty.string_of_uint d) = true.
Proof. induction d; cbn; try reflexivity; exact IHd. Qed.
Lemma num_digits n : all_digits (num_text n) = true.
Proof. unfold num_text, NilZero.string_of_uint. destruct (N.to_uint n); [reflexivity|..]; apply uint_digits. Qed.
Lemma digits_app a c : all_digits a = true -> all_digits c = true -> forall x b y d, is_digit x = false -> is_digit y = false ->
  (a ++ String x b)%string = (c ++ String y d)%string -> a = c /\ String x b = String y d.
Proof.
  revert c; induction a as [|u a IH]; intros [|v c] A C x b y d X Y E; cbn in *.
  - auto.
  - injection E as -> E. apply andb_true_iff in C as [C _]. congruence.
  - injection E as -> E. apply andb_true_iff in A as [A _]. congruence.
  - apply andb_true_iff in A as [A1 A2]. apply andb_true_iff in C as [C1 C2]. injection E as -> E.
    destruct (IH c A2 C2 x b y d X Y E) as [-> ->]. auto.
Qed.
Lemma num_app n m x b y d : is_digit x = false -> is_digit y = false ->
  (num_text n ++ String x b)%string = (num_text m ++ String y d)%string -> n = m /\ String x b = String y d.
Proof.
  intros X Y E. apply digits_app in E as [E1 E2]; [|apply num_digits|apply num_digits|exact X|exact Y].
  split; [apply num_text_inj; exact E1|exact E2].
Qed.
Lemma invalid_proof_text_inj e e' : invalid_proof_text e = invalid_proof_text e' -> e = e'.
Proof.
  destruct e as [p a b c], e' as [p' a' b' c']. unfold invalid_proof_text. cbn [ip_protocol_id ip_actual ip_expected ip_width].
  intros E. apply app_inv_head_s in E. apply id_app in E as [-> E]. apply app_inv_head_s in E.
  apply num_app in E as [-> E]; [|reflexivity|reflexivity]. injection E as E.
  apply num_app in E as [-> E]; [|reflexivity|reflexivity]. injection E as E.
  apply num_app in E as [-> E]; [|reflexivity|reflexivity]. reflexivity.
Qed.
Lemma c87_errors :
  (forall p q, leaf_not_known_text p = leaf_not_known_text q -> p = q) /\
  (forall e f, invalid_proof_text e = invalid_proof_text f -> e = f) /\
  (forall e f, merge_error_text e = merge_error_text f -> e = f) /\
  (forall e f, commit_error_text e = commit_error_text f -> e = f).
Proof.
  split; [|split; [|split]].
  - intros p q E. apply app_inv_head_s in E. apply id_app in E. tauto.
  - exact invalid_proof_text_inj.
  - intros [e|a b] [f|c d]; cbn [merge_error_text].
    + intros E. f_equal. apply invalid_proof_text_inj, E.
    + discriminate.
    + discriminate.
    + intros E. apply app_inv_head_s in E. apply id_app in E as [-> E]. apply app_inv_head_s in E. apply id_app in E as [-> _]. reflexivity.
  - intros [|n|n] [|m|m]; cbn [commit_error_text]; try discriminate; try reflexivity; intros E; apply app_inv_head_s in E;
      apply num_app in E as [E _]; try reflexivity; apply Nat2N.inj in E; subst; reflexivity.
Qed.
Lemma c87_verdicts :
  (forall e f, verify_error_text e = verify_error_text f -> e = f) /\
  (forall e f, convolve_error_text e = convolve_error_text f -> e = f) /\
  (forall v w, validity_text v = validity_text w -> v = w) /\
  (forall E (show : E -> string), (forall x y, show x = show y -> x = y) ->
     forall e f, embed_error_text show e = embed_error_text show f -> e = f).
Proof.
  split; [|split; [|split]].
  - intros [] []; try discriminate; reflexivity.
  - intros [] []; try discriminate; reflexivity.
  - intros [] []; try discriminate; reflexivity.
  - intros E show I [|x| |] [|y| |]; cbn [embed_error_text]; try discriminate; try reflexivity.
    intros Q. apply app_inv_head_s in Q. f_equal. apply I, Q.
Qed.
