(** Properties of the strings: C44. *)
From Coq Require Import String Ascii Lia.
From Verif Require Import Base TemplateModel UnitModel StrModel StrSpec StrFacts.
Open Scope nat_scope.

(** C44: the conversions of case, without the last letter of the alphabet. *)
Theorem C44_case_partial s :
  (~ In "Z"%char s -> is_lowered s (strlowcase s)) /\
  (~ In "z"%char s -> is_uppered s (strupcase s)).
Proof. exact (conj (strlowcase_ok s) (strupcase_ok s)). Qed.
Print Assumptions C44_case_partial.
Example C44_case_case :
  strlowcase (lit "RA---TAN_9"%string) = lit "ra---tan_9"%string /\ strupcase (lit "arcsec^2"%string) = lit "ARCSEC^2"%string /\
  ~ In "Z"%char (lit "RA---TAN_9"%string) /\ ~ In "z"%char (lit "arcsec^2"%string).
Proof.
  split; [vm_compute; reflexivity|]. split; [vm_compute; reflexivity|].
  split; cbn; intuition discriminate.
Qed.

(** The last letter is left as it is. *)
Theorem C44_lower_refuted : exists s, ~ is_lowered s (strlowcase s).
Proof.
  exists (lit "Hz Z"%string). intros H. unfold is_lowered in H. cbn in H.
  inversion H as [|? ? ? ? _ H1]; subst. inversion H1 as [|? ? ? ? _ H2]; subst.
  inversion H2 as [|? ? ? ? _ H3]; subst. inversion H3 as [|? ? ? ? T _]; subst.
  destruct T as [[i [A B]] | [A _]].
  - do 26 (destruct i as [|i]; [vm_compute in A, B; discriminate|]). destruct i; vm_compute in A; discriminate.
  - apply A. cbn. intuition.
Qed.
Print Assumptions C44_lower_refuted.
Theorem C44_upper_refuted : exists s, ~ is_uppered s (strupcase s).
Proof.
  exists (lit "z"%string). intros H. unfold is_uppered in H. cbn in H. inversion H as [|? ? ? ? T _]; subst.
  destruct T as [[i [A B]] | [A _]].
  - do 26 (destruct i as [|i]; [vm_compute in A, B; discriminate|]). destruct i; vm_compute in A; discriminate.
  - apply A. cbn. intuition.
Qed.
Print Assumptions C44_upper_refuted.

(** The two conversions agree with each other on all strings. *)
Theorem C44_consistent s :
  strupcase (strlowcase s) = strupcase s /\ strlowcase (strupcase s) = strlowcase s /\
  strlowcase (strlowcase s) = strlowcase s /\ strupcase (strupcase s) = strupcase s.
Proof. exact (case_consistent s). Qed.
Print Assumptions C44_consistent.

(** Splitting always succeeds, within the bounds of its output, and its elements are the
    pieces between the delimiters, padded or truncated. *)
Theorem C44_split len s d unset : exists pieces outs,
  strsplit len s d unset = Some outs /\ Forall2 (stored len) pieces outs /\
  joined d pieces = s /\ pieces <> [] /\ Forall (fun p => ~ In d p) pieces.
Proof. exact (split_pieces len s d unset). Qed.
Print Assumptions C44_split.
Example C44_split_case :
  strsplit 4 (lit "ab,,cdefg"%string) ","%char (lit "????"%string) = Some [lit "ab  "%string; lit "    "%string; lit "cdef"%string].
Proof. vm_compute. reflexivity. Qed.

(** When the pieces fit and do not end with a blank, joining gives back the string. *)
Theorem C44_split_join_partial len d pieces unset : pieces <> [] -> Forall (fun p => ~ In d p) pieces ->
  Forall (fun p => length p <= len /\ forall q, p <> q ++ [" "%char]) pieces ->
  exists outs ps, strsplit len (joined d pieces) d unset = Some outs /\ Forall2 trimmed outs ps /\ joined d ps = joined d pieces.
Proof. exact (split_join len d pieces unset). Qed.
Print Assumptions C44_split_join_partial.
Example C44_split_join_case :
  let pieces := [lit "a b"%string; []; lit " c"%string] in
  (pieces <> [] /\ Forall (fun p => ~ In ","%char p) pieces /\
   Forall (fun p => length p <= 3 /\ forall q, p <> q ++ [" "%char]) pieces) /\
  strsplit 3 (joined ","%char pieces) ","%char [] = Some [lit "a b"%string; lit "   "%string; lit " c "%string].
Proof.
  split; [|vm_compute; reflexivity]. split; [discriminate|]. split.
  - repeat constructor; cbn; intuition discriminate.
  - assert (L : forall (p q : text) c, last p "!"%char = c -> c <> " "%char -> p <> q ++ [" "%char]).
    { intros p q c E N X. rewrite X, last_last in E. congruence. }
    repeat constructor; intros q; eapply L; try reflexivity; discriminate.
Qed.

(** Otherwise the string cannot be recovered: two strings with the same elements. *)
Theorem C44_split_join_refuted : exists len d s t unset,
  s <> t /\ (forall u, In u (split d s) \/ In u (split d t) -> length u <= len) /\
  strsplit len s d unset = strsplit len t d unset.
Proof.
  exists 3, ","%char, (lit "a ,b"%string), (lit "a,b"%string), []. split; [discriminate|]. split; [|vm_compute; reflexivity].
  cbn. intros u H. intuition (subst; cbn; lia).
Qed.
Print Assumptions C44_split_join_refuted.

Theorem C44_compress s : padded (length s) (no_blank s) (strcompress s).
Proof. exact (strcompress_ok s). Qed.
Print Assumptions C44_compress.
Example C44_compress_case : strcompress (lit " a  bc "%string) = lit "abc    "%string.
Proof. vm_compute. reflexivity. Qed.

Theorem C44_join l unset : exists ps, Forall2 trimmed l ps /\ strjoin l unset = concat ps.
Proof. exists (map trim l). split; [apply map_F2; intros; apply trim_trimmed | exact (strjoin_ok l unset)]. Qed.
Print Assumptions C44_join.
Theorem C44_join_raw k l unset : Forall (fun s => length s = k) l -> strjoin_raw k l unset = concat l.
Proof. exact (strjoin_raw_ok k l unset). Qed.
Print Assumptions C44_join_raw.
Example C44_join_case : strjoin [lit "ab "%string; lit "   "%string; lit " c "%string] "?"%char = lit "ab c"%string /\ strjoin_raw 3 [lit "ab "%string; lit " c "%string] "?"%char = lit "ab  c "%string.
Proof. split; vm_compute; reflexivity. Qed.

(** Integers: [flog10 n] is floor(log10(n)) as computed. *)
Theorem C44_integer flog10 n : (Z.abs n < 10 ^ 79)%Z ->
  (n = 0%Z \/ ndigits (Z.abs n) (flog10 (Z.abs n) + 1)) -> strinteger flog10 n = str_int n.
Proof. exact (strinteger_exact flog10 n). Qed.
Print Assumptions C44_integer.
Example C44_integer_case : ndigits 2880 (3 + 1) /\ strinteger (fun _ => 3%Z) (-2880) = lit "-2880"%string.
Proof. split; [unfold ndigits; lia | vm_compute; reflexivity]. Qed.
(** A logarithm rounded up to the next integer leaves a blank at the end. *)
Theorem C44_integer_rounded_refuted flog10 n : n <> 0%Z -> (Z.abs n < 10 ^ 79)%Z ->
  ndigits (Z.abs n) (flog10 (Z.abs n)) -> strinteger flog10 n = str_int n ++ [" "%char].
Proof.
  intros H1 H2 H3. apply (strinteger_err flog10 n 1 H1 H2).
  replace (flog10 (Z.abs n) + 1 - Z.of_nat 1)%Z with (flog10 (Z.abs n)) by lia. exact H3.
Qed.
Print Assumptions C44_integer_rounded_refuted.
Example C44_integer_rounded_case :
  ndigits 999999999999999 15 /\ strinteger (fun _ => 15%Z) 999999999999999 = lit "999999999999999 "%string.
Proof. split; [unfold ndigits; lia | vm_compute; reflexivity]. Qed.

(** Sections of arrays: zero means unbound. *)
Theorem C44_section flog10 first last :
  strinteger flog10 first = str_int first -> strinteger flog10 last = str_int last ->
  strsection flog10 first last =
    Some ((if (first =? 0)%Z then [] else str_int first) ++ ":"%char :: (if (last =? 0)%Z then [] else str_int last)).
Proof. exact (strsection_exact flog10 first last). Qed.
Print Assumptions C44_section.
Example C44_section_case : strsection (fun n => if n <? 10 then 0 else 1)%Z 0 12 = Some (lit ":12"%string).
Proof. vm_compute. reflexivity. Qed.
