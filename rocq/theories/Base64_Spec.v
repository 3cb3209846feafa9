(** RFC 4648 base64, on bit strings: the octets are concatenated into a bit string,
    cut into groups of six bits (the last one filled with zero bits), each group is
    replaced by a character of the alphabet, and '=' is added up to a multiple of
    four characters. *)
From Verif Require Import Common Bits.

Definition alphabet : bytes :=
  bs "ABCDEFGHIJKLMNOPQRSTUVWXYZabcdefghijklmnopqrstuvwxyz0123456789+/".

Fixpoint sextets (l : list bool) : list (list bool) :=
  match l with
  | [] => []
  | a :: b :: c :: d :: e :: f :: r => [a; b; c; d; e; f] :: sextets r
  | _ => [l ++ repeat false (6 - length l)]
  end.

Definition rfc4648 (data : bytes) : bytes :=
  let cs := map (fun g => nth (N.to_nat (val_be g)) alphabet 0%N)
                (sextets (concat (map (bits_be 8) data))) in
  cs ++ repeat (ch "=") ((4 - length cs mod 4) mod 4).

(** An independent decoder: look every character up, stop at '=', regroup by eight
    bits and drop the incomplete last group. *)
Fixpoint position (c : N) (l : bytes) (i : N) : option N :=
  match l with
  | [] => None
  | x :: l => if (x =? c)%N then Some i else position c l (i + 1)%N
  end.
Fixpoint text_bits (t : bytes) : option (list bool) :=
  match t with
  | [] => Some []
  | c :: t =>
    if (c =? ch "=")%N then Some []
    else match position c alphabet 0%N, text_bits t with
         | Some i, Some l => Some (bits_be 6 i ++ l)
         | _, _ => None
         end
  end.
Fixpoint octets (l : list bool) : bytes :=
  match l with
  | a :: b :: c :: d :: e :: f :: g :: h :: r => val_be [a; b; c; d; e; f; g; h] :: octets r
  | _ => []
  end.
Definition b64_decode (t : bytes) : option bytes := option_map octets (text_bits t).
