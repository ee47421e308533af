(** * Utf8: decoding inverts encoding, and where characters begin. *)
From Verif Require Export Scan2.
Open Scope N_scope.

Definition valid (s : str) : Prop := forallb valid_char s = true.

Lemma valid_nil : valid [].
Proof. reflexivity. Qed.
Lemma valid_cons c s : valid (c :: s) <-> valid_char c = true /\ valid s.
Proof. unfold valid. simpl. apply andb_true_iff. Qed.
Lemma valid_app a b : valid (a ++ b) <-> valid a /\ valid b.
Proof. unfold valid. rewrite forallb_app. apply andb_true_iff. Qed.

Lemma encode_app a b : utf8_encode (a ++ b) = utf8_encode a ++ utf8_encode b.
Proof. unfold utf8_encode. apply flat_map_app. Qed.
Lemma encode_cons c s : utf8_encode (c :: s) = encode_char c ++ utf8_encode s.
Proof. reflexivity. Qed.

Lemma valid_char_spec c : valid_char c = true -> c < 55296 \/ (57344 <= c /\ c < 1114112).
Proof. unfold valid_char. rewrite orb_true_iff, andb_true_iff, !N.ltb_lt, N.leb_le. tauto. Qed.

Ltac Ncmp :=
  repeat match goal with
  | |- context [N.ltb ?a ?b] => destruct (N.ltb_spec a b)
  | |- context [N.leb ?a ?b] => destruct (N.leb_spec a b)
  | |- context [N.eqb ?a ?b] => destruct (N.eqb_spec a b)
  end.
Lemma div_lt' a b c : b <> 0 -> a < b * c -> a / b < c.
Proof. intros. now apply N.div_lt_upper_bound. Qed.
Lemma le_div a b c : b <> 0 -> b * c <= a -> c <= a / b.
Proof. intros. now apply N.div_le_lower_bound. Qed.

Lemma mod_add_eq a : 64 * (a / 64) + a mod 64 = a.
Proof. symmetry. apply N.div_mod. discriminate. Qed.

Lemma split3 c : (c / 4096) * 4096 + ((c / 64) mod 64) * 64 + c mod 64 = c.
Proof.
  pose proof (N.div_mod c 64 ltac:(discriminate)) as A.
  pose proof (N.div_mod (c / 64) 64 ltac:(discriminate)) as B.
  rewrite N.div_div in B by discriminate. change (64 * 64) with 4096 in B. lia.
Qed.
Lemma split4 c : (c / 262144) * 262144 + ((c / 4096) mod 64) * 4096 + ((c / 64) mod 64) * 64 + c mod 64 = c.
Proof.
  pose proof (split3 c) as A.
  pose proof (N.div_mod (c / 4096) 64 ltac:(discriminate)) as B.
  rewrite N.div_div in B by discriminate. change (4096 * 64) with 262144 in B. lia.
Qed.

Ltac hlia :=
  repeat match goal with
  | |- context [?a mod ?b] => let x := fresh "x" in set (x := a mod b) in *; clearbody x
  | H : context [?a mod ?b] |- _ => let x := fresh "x" in set (x := a mod b) in *; clearbody x
  end;
  repeat match goal with
  | |- context [?a / ?b] => let x := fresh "x" in set (x := a / b) in *; clearbody x
  | H : context [?a / ?b] |- _ => let x := fresh "x" in set (x := a / b) in *; clearbody x
  end; lia.
Lemma contK x : x < 64 -> is_cont (128 + x) = true.
Proof. intros Hx. unfold is_cont. apply andb_true_iff. rewrite !N.leb_le. hlia. Qed.

Lemma lossy_char c r : valid_char c = true ->
  utf8_lossy (encode_char c ++ r) = c :: utf8_lossy r.
Proof.
  intros Hv. apply valid_char_spec in Hv. unfold encode_char.
  destruct (N.ltb_spec c 128) as [H|H].
  { cbn [app utf8_lossy]. now rewrite (proj2 (N.ltb_lt _ _) H). }
  pose proof (N.mod_lt c 64 ltac:(discriminate)) as M1.
  pose proof (N.mod_lt (c / 64) 64 ltac:(discriminate)) as M2.
  pose proof (N.mod_lt (c / 4096) 64 ltac:(discriminate)) as M3.
  destruct (N.ltb_spec c 2048) as [H2|H2].
  { cbn [app utf8_lossy].
    assert (L1 : 2 <= c / 64) by (apply le_div; [discriminate|lia]). assert (L2 : c / 64 < 32) by (apply div_lt'; [discriminate|lia]).
    rewrite (proj2 (N.ltb_ge _ _)) by hlia.
    rewrite (proj2 (N.leb_le 194 _)) by hlia. rewrite (proj2 (N.leb_le _ 223)) by hlia. cbn [andb].
    rewrite (contK _ M1). f_equal. pose proof (mod_add_eq c). hlia. }
  destruct (N.ltb_spec c 65536) as [H3|H3].
  { cbn [app utf8_lossy].
    assert (L2 : c / 4096 < 16) by (apply div_lt'; [discriminate|lia]).
    rewrite (proj2 (N.ltb_ge _ _)) by hlia.
    rewrite (proj2 (N.leb_gt (224 + c / 4096) 223)) by hlia. rewrite andb_false_r.
    rewrite (proj2 (N.leb_le 224 _)) by hlia. rewrite (proj2 (N.leb_le _ 239)) by hlia. cbn [andb].
    pose proof (split3 c) as S3.
    assert (K : ok3 (224 + c / 4096) (128 + (c / 64) mod 64) = true).
    { unfold ok3.
      destruct (N.eqb_spec (224 + c / 4096) 224) as [E|E].
      - assert (K0 : c / 4096 = 0) by hlia. rewrite K0 in S3. apply andb_true_iff. rewrite !N.leb_le. hlia.
      - destruct (N.eqb_spec (224 + c / 4096) 237) as [E'|E'].
        + assert (K0 : c / 4096 = 13) by hlia. rewrite K0 in S3. apply andb_true_iff. rewrite !N.leb_le. hlia.
        + unfold is_cont. apply andb_true_iff. rewrite !N.leb_le. hlia. }
    rewrite K, (contK _ M1). f_equal. hlia. }
  cbn [app utf8_lossy].
  assert (L2 : c / 262144 < 5) by (apply div_lt'; [discriminate|lia]).
  rewrite (proj2 (N.ltb_ge _ _)) by hlia.
  rewrite (proj2 (N.leb_gt (240 + c / 262144) 223)) by hlia. rewrite andb_false_r.
  rewrite (proj2 (N.leb_gt (240 + c / 262144) 239)) by hlia. rewrite andb_false_r.
  rewrite (proj2 (N.leb_le 240 _)) by hlia. rewrite (proj2 (N.leb_le _ 244)) by hlia. cbn [andb].
  pose proof (split4 c) as S4.
  assert (K : ok4 (240 + c / 262144) (128 + (c / 4096) mod 64) = true).
  { unfold ok4.
    destruct (N.eqb_spec (240 + c / 262144) 240) as [E|E].
    - assert (K0 : c / 262144 = 0) by hlia. rewrite K0 in S4. apply andb_true_iff. rewrite !N.leb_le. hlia.
    - destruct (N.eqb_spec (240 + c / 262144) 244) as [E'|E'].
      + assert (K0 : c / 262144 = 4) by hlia. rewrite K0 in S4. apply andb_true_iff. rewrite !N.leb_le. hlia.
      + unfold is_cont. apply andb_true_iff. rewrite !N.leb_le. hlia. }
  rewrite K, (contK _ M2), (contK _ M1). f_equal. hlia.
Qed.

Lemma lossy_encode_app s r : valid s -> utf8_lossy (utf8_encode s ++ r) = s ++ utf8_lossy r.
Proof.
  induction s as [|c s IH]; intros H; [reflexivity|]. apply valid_cons in H as [Hc Hs].
  rewrite encode_cons, <- app_assoc, lossy_char by exact Hc. now rewrite IH.
Qed.
Lemma lossy_encode s : valid s -> utf8_lossy (utf8_encode s) = s.
Proof. intros H. pose proof (lossy_encode_app s [] H) as K. now rewrite !app_nil_r in K. Qed.

(** ** Where characters begin *)

(** [head_ok l]: [l] does not begin inside a character. *)
Definition head_ok (l : bytes) : Prop := match l with [] => True | b :: _ => is_cont b = false end.
(** after a character that is one byte long another one begins *)
Fixpoint seams (l : bytes) : Prop :=
  match l with
  | [] => True
  | b :: r => (b < 128 -> head_ok r) /\ seams r
  end.
(** what a decoder needs to know about the bytes of a document *)
Definition text_bytes (d : bytes) : Prop := head_ok d /\ seams d.

Lemma seams_skip d k : seams d -> seams (skipn k d).
Proof. revert d; induction k as [|k IH]; intros [|b d] H; simpl; auto. apply IH, H. Qed.

Lemma encode_head c r : exists b t, encode_char c ++ r = b :: t /\ is_cont b = false.
Proof.
  unfold encode_char, is_cont.
  destruct (N.ltb_spec c 128); [|destruct (N.ltb_spec c 2048); [|destruct (N.ltb_spec c 65536)]];
    (eexists _, _; split; [reflexivity|]).
  - rewrite (proj2 (N.leb_gt 128 c)) by lia. reflexivity.
  - rewrite (proj2 (N.leb_gt _ 191)) by hlia. apply andb_false_r.
  - rewrite (proj2 (N.leb_gt _ 191)) by hlia. apply andb_false_r.
  - rewrite (proj2 (N.leb_gt _ 191)) by hlia. apply andb_false_r.
Qed.
Lemma encode_head_ok s : head_ok (utf8_encode s).
Proof.
  destruct s as [|c s]; [exact Logic.I|]. rewrite encode_cons.
  destruct (encode_head c (utf8_encode s)) as (b & t & -> & H). exact H.
Qed.
Lemma encode_seams s : seams (utf8_encode s).
Proof.
  induction s as [|c s IH]; [exact Logic.I|]. rewrite encode_cons. pose proof (encode_head_ok s) as H.
  unfold encode_char.
  destruct (N.ltb_spec c 128); [|destruct (N.ltb_spec c 2048); [|destruct (N.ltb_spec c 65536)]];
    cbn [app seams]; repeat split; auto; intros; hlia.
Qed.
Lemma encode_text s : text_bytes (utf8_encode s).
Proof. split; [apply encode_head_ok|apply encode_seams]. Qed.

Lemma cont_char c b t : valid_char c = true -> encode_char c = b :: t -> Forall (fun x => is_cont x = true) t.
Proof.
  intros Hv. apply valid_char_spec in Hv. unfold encode_char.
  pose proof (N.mod_lt c 64 ltac:(discriminate)) as M1.
  pose proof (N.mod_lt (c / 64) 64 ltac:(discriminate)) as M2.
  pose proof (N.mod_lt (c / 4096) 64 ltac:(discriminate)) as M3.
  assert (K : forall x, x < 64 -> is_cont (128 + x) = true).
  { intros x Hx. unfold is_cont. apply andb_true_iff. rewrite !N.leb_le. hlia. }
  destruct (N.ltb_spec c 128); [|destruct (N.ltb_spec c 2048); [|destruct (N.ltb_spec c 65536)]];
    intros [= <- <-]; repeat (apply Forall_cons; [apply K; assumption|]); apply Forall_nil.
Qed.

(** A position at which no continuation byte stands is between two characters. *)
Lemma cut_between s p : valid s -> (p <= List.length (utf8_encode s))%nat ->
  head_ok (skipn p (utf8_encode s)) ->
  exists a b, s = a ++ b /\ p = List.length (utf8_encode a).
Proof.
  revert p. induction s as [|c s IH]; intros p Hv Hp Hh.
  - exists [], []. split; [reflexivity|]. simpl in *. lia.
  - apply valid_cons in Hv as [Hc Hs]. rewrite encode_cons in Hp, Hh.
    destruct (encode_head c []) as (b & t & E & Hb). rewrite app_nil_r in E.
    destruct p as [|p]; [exists [], (c :: s); now split|].
    assert (L : (List.length (encode_char c) <= S p)%nat).
    { destruct (le_lt_dec (List.length (encode_char c)) (S p)) as [L|L]; [exact L|exfalso].
      rewrite E in Hh, L. cbn [skipn app] in Hh.
      pose proof (cont_char c b t Hc E) as K. simpl in L.
      assert (Ht : (p < List.length t)%nat) by lia. clear -Hh K Ht.
      revert p Hh Ht. induction t as [|x t IH]; intros p Hh Ht; [simpl in Ht; lia|].
      inversion K; subst. destruct p as [|p]; cbn [skipn app] in Hh.
      - simpl in Hh. congruence.
      - apply (IH H2 p); [exact Hh|simpl in Ht; lia]. }
    assert (Hsk : skipn (S p) (encode_char c ++ utf8_encode s)
                  = skipn (S p - List.length (encode_char c)) (utf8_encode s)).
    { rewrite skipn_app. rewrite skipn_all2 by exact L. reflexivity. }
    rewrite Hsk in Hh. rewrite app_length in Hp.
    destruct (IH (S p - List.length (encode_char c))%nat Hs ltac:(lia) Hh) as (x & y & -> & Hl).
    exists (c :: x), y. split; [reflexivity|]. rewrite encode_cons, app_length. lia.
Qed.
