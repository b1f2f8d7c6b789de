(** Theorems about the word count (C44). *)
From Coq Require Import List Arith NArith Bool Lia.
From Verif Require Import WordModel WordSpec WordProof.
Import ListNotations.

(** C44: the text counted is what the document reads, and nothing else. *)
Theorem C44_text : forall d t, reads d t <-> t = export_doc d.
Proof. intros d t. split; [apply doc_only|]. intros ->. apply doc_reads. Qed.
Print Assumptions C44_text.
(** C44: with the text of the document cut into maximal pieces of spaces, CJK characters and other
    characters, words are the CJK characters and the pieces of other characters, characters are
    all characters, and spaces are the pieces of spaces except at the very beginning. *)
Theorem C44_counts : forall ws cjk d t gs, reads d t -> segs (kind_of ws cjk) t gs -> word_count ws cjk d =
  mkCounts (number (fun c => negb (ws c) && cjk c) t + pieces KWord gs) (length t) (pieces KSpace gs - begins KSpace gs) (number (fun c => negb (ws c) && cjk c) t).
Proof. intros ws cjk d t gs R S. apply doc_only in R. subst t. exact (count_right ws cjk _ gs S). Qed.
Print Assumptions C44_counts.
(** C44: every text can be cut that way. *)
Theorem C44_pieces : forall ws cjk t, exists gs, segs (kind_of ws cjk) t gs.
Proof. exact segs_ex. Qed.
Print Assumptions C44_pieces.
(** C44: texts with a space between have the words of both. *)
Theorem C44_split : forall ws cjk a c b, ws c = true -> words (count_text ws cjk (a ++ c :: b)) = words (count_text ws cjk a) + words (count_text ws cjk b).
Proof. exact count_split. Qed.
Print Assumptions C44_split.
(** Pages without a hint are not separated: the last word of one and the first of the next are one. *)
Theorem C44_joined : exists ws cjk p q, words (word_count ws cjk (Paged [p; q])) < words (word_count ws cjk (Paged [p])) + words (word_count ws cjk (Paged [q])).
Proof. exists (fun c => (c =? 32)%N), (fun _ => false), (Frame [Text [97%N]] 0), (Frame [Text [98%N]] 0). cbn. lia. Qed.
Print Assumptions C44_joined.
Definition sp_ (c : N) : bool := ((c =? 32) || (c =? 10))%N.
Definition cj_ (c : N) : bool := ((19968 <=? c) && (c <? 40960))%N.
(** " ab", two CJK characters and "c" in a group that ends with a newline; "d" on the next page. *)
Example C44_nonvacuous : let d := Paged [Frame [Text [32; 97; 98]%N; Other; Group (Frame [Text [20013; 25991]%N; Text [99]%N] 10)] 0; Frame [Text [100]%N] 0] in
  let t := [32; 97; 98; 20013; 25991; 99; 10; 100]%N in
  reads d t /\ segs (kind_of sp_ cj_) t [(KSpace, [32]); (KWord, [97; 98]); (KCjk, [20013; 25991]); (KWord, [99]); (KSpace, [10]); (KWord, [100])]%N /\
  word_count sp_ cj_ d = mkCounts 5 8 1 2.
Proof.
  cbv zeta. split; [apply C44_text; reflexivity|]. split; [|reflexivity]. split; [reflexivity|]. split; [repeat constructor; discriminate|].
  intros a x y b E. do 5 (destruct a as [|? a]; [injection E as <- <- _; discriminate|injection E as _ E]). destruct a as [|? [|? ?]]; discriminate.
Qed.
