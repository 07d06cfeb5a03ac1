(** Calls on a cx_multimap, or on a set it holds, that remove nothing. *)
From Verif Require Import Base CxSetModel CxMultimapModel RefSpec.

Definition mm_keeps {K V} (op : mm_op K V) : Prop :=
  match op with
  | MMErase _ _ | MMEraseKey _ | MMClear => False
  | MMOnSet _ sop => s_keeps sop
  | _ => True
  end.
