(* SHA-256 (FIPS 180-4) on lists of bytes. Only used by the tests of the models (HttpTests.v): the models and theorems take the hash as a parameter. *)
From Coq Require Import Ascii String List NArith.
Import ListNotations.
Local Open Scope N_scope.

Definition word : N := 4294967296.
Definition add (a b : N) : N := (a + b) mod word.
Definition not32 (a : N) : N := N.lxor a (word - 1).
Definition rotr (n a : N) : N := N.lor (N.shiftr a n) (N.shiftl a (32 - n) mod word).
Definition ch (x y z : N) : N := N.lxor (N.land x y) (N.land (not32 x) z).
Definition maj (x y z : N) : N := N.lxor (N.land x y) (N.lxor (N.land x z) (N.land y z)).
Definition big0 (x : N) : N := N.lxor (rotr 2 x) (N.lxor (rotr 13 x) (rotr 22 x)).
Definition big1 (x : N) : N := N.lxor (rotr 6 x) (N.lxor (rotr 11 x) (rotr 25 x)).
Definition small0 (x : N) : N := N.lxor (rotr 7 x) (N.lxor (rotr 18 x) (N.shiftr x 3)).
Definition small1 (x : N) : N := N.lxor (rotr 17 x) (N.lxor (rotr 19 x) (N.shiftr x 10)).
Definition K : list N :=
 [1116352408; 1899447441; 3049323471; 3921009573; 961987163; 1508970993; 2453635748; 2870763221; 3624381080; 310598401; 607225278; 
1426881987; 1925078388; 2162078206; 2614888103; 3248222580; 3835390401; 4022224774; 264347078; 604807628; 770255983; 1249150122; 
1555081692; 1996064986; 2554220882; 2821834349; 2952996808; 3210313671; 3336571891; 3584528711; 113926993; 338241895; 666307205; 
773529912; 1294757372; 1396182291; 1695183700; 1986661051; 2177026350; 2456956037; 2730485921; 2820302411; 3259730800; 
3345764771; 3516065817; 3600352804; 4094571909; 275423344; 430227734; 506948616; 659060556; 883997877; 958139571; 1322822218; 
1537002063; 1747873779; 1955562222; 2024104815; 2227730452; 2361852424; 2428436474; 2756734187; 3204031479; 3329325298].
Definition H0 : list N := [1779033703; 3144134277; 1013904242; 2773480762; 1359893119; 2600822924; 528734635; 1541459225].

(* padding: a bit, zeroes, the length in bits *)
Fixpoint be (n : nat) (v : N) : list N := match n with O => [] | S n => be n (v / 256) ++ [v mod 256] end.
Definition zeroes (len : nat) : nat := N.to_nat ((119 - N.of_nat len mod 64) mod 64).
Definition padded (m : list N) : list N := m ++ [128] ++ repeat 0 (zeroes (length m)) ++ be 8 (8 * N.of_nat (length m)).
Fixpoint words (fuel : nat) (m : list N) : list N :=
  match fuel, m with
  | S f, a :: b :: c :: d :: r => (((a * 256 + b) * 256 + c) * 256 + d) :: words f r
  | _, _ => []
  end.
(* the schedule, latest word first *)
Fixpoint schedule (n : nat) (w : list N) : list N :=
  match n with
  | O => w
  | S n => schedule n (add (add (small1 (nth 1 w 0)) (nth 6 w 0)) (add (small0 (nth 14 w 0)) (nth 15 w 0)) :: w)
  end.
Definition round (s : list N) (kw : N * N) : list N :=
  match s with
  | [a; b; c; d; e; f; g; h] =>
      let t1 := add (add h (big1 e)) (add (ch e f g) (add (fst kw) (snd kw))) in
      let t2 := add (big0 a) (maj a b c) in
      [add t1 t2; a; b; c; add d t1; e; f; g]
  | _ => s
  end.
Definition compress (s : list N) (block : list N) : list N :=
  map (fun p => add (fst p) (snd p)) (combine s (fold_left round (combine K (rev (schedule 48 (rev block)))) s)).
Fixpoint blocks (fuel : nat) (ws : list N) (s : list N) : list N :=
  match fuel, ws with
  | S f, _ :: _ => blocks f (skipn 16 ws) (compress s (firstn 16 ws))
  | _, _ => s
  end.
Definition digest (m : list N) : list N := let w := words (length (padded m)) (padded m) in blocks (length w) w H0.
(* lower case hexadecimal, as hex::encode *)
Definition hex1 (n : N) : ascii := ascii_of_N (if n <? 10 then 48 + n else 87 + n).
Definition hex (m : list N) : list ascii := flat_map (fun b => [hex1 (b / 16); hex1 (b mod 16)]) m.
Definition sha256 (m : list ascii) : list ascii := hex (flat_map (be 4) (digest (map N_of_ascii m))).
(* the first test vector of FIPS 180-4 *)
Example abc : sha256 (list_ascii_of_string "abc") = list_ascii_of_string "ba7816bf8f01cfea414140de5dae2223b00361a396177a9cb410ff61f20015ad".
Proof. vm_compute. reflexivity. Qed.
