"""Embed the text of /repo/setup.cfg in Coq (rocq/theories/SetupCfg.v), byte by byte."""
text = open("/repo/setup.cfg", "rb").read().decode("latin-1")
assert text.endswith("\n") and "\r" not in text
lines = text.split("\n")[:-1]
with open("rocq/theories/SetupCfg.v", "w", encoding="latin-1") as f:
    f.write('''(** Text of /repo/setup.cfg, generated by tools/gen_setup_cfg.py. *)
From Coq Require Import List String.
Import ListNotations.
Local Open Scope string_scope.

(** setup.cfg:1-%d. *)
Definition setup_cfg_lines : list string :=
  [
''' % len(lines))
    f.write(";\n".join('    "' + x.replace('"', '""') + '"' for x in lines))
    f.write("\n  ].\n")
