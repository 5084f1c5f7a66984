(** The example configuration that comes with the library. *)
From Verif Require Import GoStr ConfModel WorldModel.
Local Open Scope Z_scope.

(** example/log4g.yaml:4 [layout] (the same text is at README.md:65); the escaped \n of the double-quoted YAML
    text is a line feed. *)
Definition doc_layout : str := $"%{time} %{level} %{module} %{pid:6d} >> %{msg} (%{longfile}:%{line}) " ++ ["010"%char].
(** example/log4g.yaml:1-29, decoded into [Config] (api/logger_mange.go:42-46). The entries of formats and outputs are maps from
    texts to texts: gopkg.in/yaml.v2 gives a plain scalar such as 0640 or 5 to a text as it is written. *)
Definition doc_config : config := mkCfg
  [Some [($"name", $"f1"); ($"type", $"text"); ($"layout", doc_layout)]]
  [Some [($"name", $"c1"); ($"type", $"console"); ($"format", $"f1"); ($"threshold", $"info")];
   Some [($"name", $"r1"); ($"type", $"size_rolling_file"); ($"format", $"f1"); ($"file", $"log/rf.log"); ($"file_perm", $"0640");
         ($"back_perm", $"0550"); ($"dir_perm", $"0750"); ($"size", $"1M"); ($"backups", $"5"); ($"threshold", $"info")];
   Some [($"name", $"s1"); ($"type", $"syslog"); ($"format", $"f1"); ($"prefix", $"module")]]
  [mkCL ($"root") ($"info") [$"r1"; $"c1"]; mkCL ($"a/b") ($"info") [$"r1"; $"c1"]].
