(** The messages to the viewer: lemmas on strings. *)
From Verif Require Import Spec_Com.
Open Scope R_scope.
Open Scope string_scope.

Lemma has_app c a b : has c (a ++ b) = has c a || has c b.
Proof. induction a as [ | x a IH]; [reflexivity | ]. cbn [append has]. rewrite IH. apply orb_assoc. Qed.
Lemma split_app c a s : has c a = false -> split c (a ++ String c s) = a :: split c s.
Proof.
  induction a as [ | x a IH]; intros H; cbn [append split].
  - rewrite Ascii.eqb_refl. reflexivity.
  - cbn [has] in H. apply orb_false_elim in H. destruct H as (H1 & H2). rewrite H1, (IH H2). reflexivity.
Qed.
Lemma split_none c a : has c a = false -> split c a = [a].
Proof. induction a as [ | x a IH]; intros H; [reflexivity | ]. cbn [has] in H. apply orb_false_elim in H. destruct H as (H1 & H2). cbn [split]. rewrite H1, (IH H2). reflexivity. Qed.
Lemma app_assoc_s (a b c : string) : (a ++ b) ++ c = a ++ b ++ c.
Proof. induction a as [ | x a IH]; [reflexivity | ]. cbn [append]. now rewrite IH. Qed.
Lemma app_nil_s (a : string) : a ++ "" = a.
Proof. induction a as [ | x a IH]; [reflexivity | ]. cbn [append]. now rewrite IH. Qed.
Lemma concat_cons s x l : l <> [] -> String.concat s (x :: l) = x ++ s ++ String.concat s l.
Proof. destruct l; [congruence | reflexivity]. Qed.
Lemma concat_empty l : String.concat "" l = fold_right append "" l.
Proof. induction l as [ | x [ | y l] IH]; [reflexivity | cbn; now rewrite app_nil_s | ]. rewrite concat_cons by discriminate. rewrite IH. reflexivity. Qed.
Lemma lines_concat ps : (forall p, In p ps -> has nl p = false) -> lines (String.concat "" (map (fun p => p ++ newline) ps)) = ps.
Proof.
  intros H. rewrite concat_empty. unfold lines. assert (E : split nl (fold_right append "" (map (fun p => p ++ newline) ps)) = (ps ++ [""])%list); [ | rewrite E; apply removelast_last].
  induction ps as [ | p ps IH]; [reflexivity | ]. cbn [map fold_right]. rewrite app_assoc_s. change (newline ++ ?x)%string with (String nl x). rewrite split_app by (apply H; now left). rewrite IH by (intros q J; apply H; now right). reflexivity.
Qed.
Lemma words_concat l : l <> [] -> (forall w, In w l -> has sp w = false) -> words (String.concat " " l) = l.
Proof.
  induction l as [ | w [ | v l] IH]; intros N H; [congruence | cbn [String.concat]; apply split_none, H; now left | ].
  rewrite concat_cons by discriminate. change (" " ++ ?x)%string with (String sp x). unfold words. rewrite split_app by (apply H; now left). f_equal. apply IH; [discriminate | intros u J; apply H; now right].
Qed.
Lemma has_concat c s l : has c s = false -> (forall w, In w l -> has c w = false) -> has c (String.concat s l) = false.
Proof.
  intros Hs. induction l as [ | w [ | v l] IH]; intros H; [reflexivity | cbn [String.concat]; apply H; now left | ].
  rewrite concat_cons by discriminate. rewrite !has_app, Hs, (H w) by (now left). cbn [orb]. apply IH. intros u J. apply H. now right.
Qed.
(** the number of words of a line *)
Fixpoint count (c : ascii) (s : string) : nat := match s with "" => 0 | String a s' => (if Ascii.eqb a c then 1 else 0) + count c s' end.
Lemma split_length c s : List.length (split c s) = Datatypes.S (count c s).
Proof. induction s as [ | a s IH]; [reflexivity | ]. cbn [split count]. destruct (Ascii.eqb a c); [cbn; now rewrite IH | ]. destruct (split c s); [discriminate | exact IH]. Qed.
Lemma count_app c a b : count c (a ++ b) = (count c a + count c b)%nat.
Proof. induction a as [ | x a IH]; [reflexivity | ]. cbn [append count]. rewrite IH. lia. Qed.
Lemma count_has c a : has c a = true -> (1 <= count c a)%nat.
Proof. induction a as [ | x a IH]; cbn [has count]; [discriminate | ]. destruct (Ascii.eqb x c); [intros _; lia | cbn [orb]; intros H; specialize (IH H); lia]. Qed.
Lemma count_hasnt c a : has c a = false -> count c a = 0%nat.
Proof. induction a as [ | x a IH]; cbn [has count]; [reflexivity | ]. intros H. apply orb_false_elim in H. destruct H as (-> & H2). now rewrite IH. Qed.
Lemma count_concat l : count sp (String.concat " " l) = (list_sum (map (count sp) l) + (List.length l - 1))%nat.
Proof.
  induction l as [ | w [ | v l] IH]; [reflexivity | cbn; lia | ]. rewrite concat_cons by discriminate. rewrite !count_app, IH. cbn [map list_sum fold_right List.length count]. change (Ascii.eqb " " sp) with true. cbn iota. lia.
Qed.

(** the lines of a message *)
Definition line (str : R -> string) (x : string * m4) : string := String.concat " " (fst x :: map str (row12 (snd x))).
Lemma packing_line str n H : packing_transform str n H = line str (n, H) ++ newline. Proof. reflexivity. Qed.
Definition affine (H : m4) : Prop := bot H = zero3 /\ hom H = 1.
Lemma line_read str num rnd x : reads str num rnd -> word (fst x) -> read_line num (line str x) = [(fst x, rounded rnd (snd x))].
Proof.
  intros Ex (W & _). destruct x as (n, H). cbn [fst snd] in *. unfold read_line, line. rewrite words_concat; [ | discriminate | ].
  - cbn [fst snd]. rewrite map_map. unfold row12. cbn [map]. rewrite !(fun x => proj2 (Ex x)). reflexivity.
  - intros w [<- | J]; [exact W | ]. apply in_map_iff in J. destruct J as (y & <- & _). apply (proj1 (Ex y)).
Qed.
Lemma message_read str num rnd xs : reads str num rnd -> (forall x, In x xs -> word (fst x)) ->
  lines (String.concat "" (map (fun x => packing_transform str (fst x) (snd x)) xs)) = map (line str) xs /\
  read_message num (String.concat "" (map (fun x => packing_transform str (fst x) (snd x)) xs)) = map (fun x => (fst x, rounded rnd (snd x))) xs.
Proof.
  intros Ex H. assert (L : lines (String.concat "" (map (fun x => packing_transform str (fst x) (snd x)) xs)) = map (line str) xs).
  { transitivity (lines (String.concat "" (map (fun p => p ++ newline) (map (line str) xs)))); [rewrite map_map; reflexivity | ]. apply lines_concat.
    intros p J. apply in_map_iff in J. destruct J as (x & <- & J). unfold line. apply has_concat; [reflexivity | ]. intros w [<- | K]; [apply (H x J) | ]. apply in_map_iff in K. destruct K as (y & <- & _). apply (proj1 (Ex y)). }
  split; [exact L | ]. unfold read_message. rewrite L. clear L. induction xs as [ | x xs IH]; [reflexivity | ]. cbn [map flat_map]. assert (W := H x (or_introl eq_refl)). rewrite (line_read _ _ _ _ Ex W), IH by (intros y J; apply H; now right). reflexivity.
Qed.
Lemma rounded_fix rnd H : affine H -> (forall x, In x (row12 H) -> rnd x = x) -> rounded rnd H = H.
Proof. intros (B & C) Hx. destruct H as [[] [] b c]. cbn in B, C. subst. unfold rounded. cbn in *. rewrite !Hx by (cbn; auto 20). reflexivity. Qed.
(** a name with spaces makes a line of more than thirteen words, which is not read *)
Lemma line_long str num n H : has sp n = true -> (13 < List.length (words (line str (n, H))))%nat /\ read_line num (line str (n, H)) = [].
Proof.
  intros Hn. assert (L : (13 < List.length (words (line str (n, H))))%nat).
  { unfold words. rewrite split_length. unfold line. cbn [fst snd]. rewrite count_concat. cbn [map list_sum fold_right List.length row12]. apply count_has in Hn. lia. }
  split; [exact L | ]. unfold read_line. destruct (words (line str (n, H))) as [ | a ws]; [reflexivity | ]. cbn [List.length] in L.
  do 12 (destruct ws as [ | ? ws]; [cbn in L; lia | ]). destruct ws as [ | w ws]; [cbn in L; lia | ]. cbn [map].
  repeat match goal with |- match ?x with Some _ => _ | None => _ end = _ => destruct x; [ | reflexivity] end. reflexivity.
Qed.
