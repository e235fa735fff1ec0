(** MD5 as RFC 1321 defines it.

    /repo does not contain it: utils/md5.cc calls OpenSSL's MD5_Init, MD5_Update and MD5_Final.  The model's other
    files take an arbitrary digest function; this one is used to compare the model's signatures with the digests
    that the project's own tests expect (Md5Wrapper.v, PropsMd5.v), and to know that such a function exists. *)
From Coq Require Import ZArith Ascii String List.
Import ListNotations.
Local Open Scope Z_scope.

Definition two32 : Z := 4294967296.
Definition rotl (x n : Z) : Z := Z.lor (Z.shiftl x n mod two32) (Z.shiftr x (32 - n)).
Definition not32 (x : Z) : Z := two32 - 1 - x.

(** RFC 1321, 3.4: T[i] is the integer part of 4294967296 times abs(sin(i)), i in radians. *)
Definition sines : list Z :=
  [
   3614090360; 3905402710; 606105819; 3250441966; 4118548399; 1200080426; 2821735955; 4249261313;
   1770035416; 2336552879; 4294925233; 2304563134; 1804603682; 4254626195; 2792965006; 1236535329;
   4129170786; 3225465664; 643717713; 3921069994; 3593408605; 38016083; 3634488961; 3889429448;
   568446438; 3275163606; 4107603335; 1163531501; 2850285829; 4243563512; 1735328473; 2368359562;
   4294588738; 2272392833; 1839030562; 4259657740; 2763975236; 1272893353; 4139469664; 3200236656;
   681279174; 3936430074; 3572445317; 76029189; 3654602809; 3873151461; 530742520; 3299628645;
   4096336452; 1126891415; 2878612391; 4237533241; 1700485571; 2399980690; 4293915773; 2240044497;
   1873313359; 4264355552; 2734768916; 1309151649; 4149444226; 3174756917; 718787259; 3951481745].
Definition shifts : list Z :=
  flat_map (fun r => r ++ r ++ r ++ r) [[7; 12; 17; 22]; [5; 9; 14; 20]; [4; 11; 16; 23]; [6; 10; 15; 21]].

Definition state := (Z * Z * Z * Z)%type.
Definition round_function (i : Z) (b c d : Z) : Z * Z :=
  if i <? 16 then (Z.lor (Z.land b c) (Z.land (not32 b) d), i)
  else if i <? 32 then (Z.lor (Z.land d b) (Z.land (not32 d) c), (5 * i + 1) mod 16)
  else if i <? 48 then (Z.lxor b (Z.lxor c d), (3 * i + 5) mod 16)
  else (Z.lxor c (Z.lor b (not32 d)), (7 * i) mod 16).
Definition round (words : list Z) (s : state) (itk : Z * (Z * Z)) : state :=
  let '(a, b, c, d) := s in
  let '(i, (t, k)) := itk in
  let '(f, g) := round_function i b c d in
  let x := (f + a + t + nth (Z.to_nat g) words 0) mod two32 in
  (d, (b + rotl x k) mod two32, b, c).
Definition rounds : list (Z * (Z * Z)) := combine (map Z.of_nat (seq 0 64)) (combine sines shifts).

Fixpoint words_of (bytes : list Z) : list Z :=
  match bytes with
  | b0 :: b1 :: b2 :: b3 :: bytes' => (b0 + 256 * (b1 + 256 * (b2 + 256 * b3))) :: words_of bytes'
  | _ => []
  end.
Definition compress (s : state) (block : list Z) : state :=
  let '(a, b, c, d) := s in
  let '(a', b', c', d') := fold_left (round (words_of block)) rounds s in
  ((a + a') mod two32, (b + b') mod two32, (c + c') mod two32, (d + d') mod two32).

Fixpoint blocks (n : nat) (bytes : list Z) : list (list Z) :=
  match n with O => [] | S n' => firstn 64 bytes :: blocks n' (skipn 64 bytes) end.
Fixpoint little_endian (n : nat) (x : Z) : list Z :=
  match n with O => [] | S n' => x mod 256 :: little_endian n' (x / 256) end.
Definition pad (bytes : list Z) : list Z :=
  let n := Z.of_nat (length bytes) in
  bytes ++ [128] ++ repeat 0 (Z.to_nat ((55 - n) mod 64)) ++ little_endian 8 (8 * n).

Definition byte_of (a : ascii) : Z := Z.of_nat (nat_of_ascii a).
Definition ascii_of (x : Z) : ascii := ascii_of_nat (Z.to_nat x).
Definition md5_bytes (bytes : list Z) : list Z :=
  let p := pad bytes in
  let '(a, b, c, d) := fold_left compress (blocks (length p / 64) p) (1732584193, 4023233417, 2562383102, 271733878) in
  little_endian 4 a ++ little_endian 4 b ++ little_endian 4 c ++ little_endian 4 d.
Definition rfc1321 (s : string) : string :=
  string_of_list_ascii (map ascii_of (md5_bytes (map byte_of (list_ascii_of_string s)))).

Lemma rfc1321_length s : length (list_ascii_of_string (rfc1321 s)) = 16%nat.
Proof.
  unfold rfc1321. rewrite list_ascii_of_string_of_list_ascii, map_length. unfold md5_bytes.
  destruct (fold_left compress _ _) as [[[a b] c] d]. reflexivity.
Qed.
