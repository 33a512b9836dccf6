(** The text of the files of the derive macro that read attributes, line by line (a double
    quote is written twice, as Coq demands). *)
Require Import String List.
Import ListNotations.
Open Scope string_scope.

(** fixed-map-derive/src/attrs.rs:1-29. *)
Definition text_derive_attrs : list string :=
["use crate::context::{Ctxt, Opts};";
 "use crate::symbol;";
 "";
 "/// Parse attributes.";
 "pub(crate) fn parse(cx: &Ctxt<'_>) -> Result<Opts, ()> {";
 "    let mut opts = Opts::default();";
 "";
 "    for attr in &cx.ast.attrs {";
 "        if attr.path() != symbol::KEY {";
 "            continue;";
 "        }";
 "";
 "        let result = attr.parse_nested_meta(|input| {";
 "            if input.path == symbol::BITSET {";
 "                opts.bitset = Some(input.input.span());";
 "            } else {";
 "                return Err(syn::Error::new(input.input.span(), ""Unsupported attribute""));";
 "            }";
 "";
 "            Ok(())";
 "        });";
 "";
 "        if let Err(error) = result {";
 "            cx.error(error);";
 "        }";
 "    }";
 "";
 "    Ok(opts)";
 "}"].

(** fixed-map-derive/src/symbol.rs:1-47. *)
Definition text_derive_symbol : list string :=
["use core::fmt;";
 "use core::ops::Deref;";
 "use syn::{Ident, Path};";
 "";
 "#[derive(Copy, Clone)]";
 "pub struct Symbol(&'static str);";
 "";
 "pub(crate) const KEY: Symbol = Symbol(""key"");";
 "pub(crate) const BITSET: Symbol = Symbol(""bitset"");";
 "";
 "impl PartialEq<Symbol> for Ident {";
 "    fn eq(&self, word: &Symbol) -> bool {";
 "        self == word.0";
 "    }";
 "}";
 "";
 "impl PartialEq<Symbol> for &Ident {";
 "    fn eq(&self, word: &Symbol) -> bool {";
 "        *self == word.0";
 "    }";
 "}";
 "";
 "impl PartialEq<Symbol> for Path {";
 "    fn eq(&self, word: &Symbol) -> bool {";
 "        self.is_ident(word.0)";
 "    }";
 "}";
 "";
 "impl PartialEq<Symbol> for &Path {";
 "    fn eq(&self, word: &Symbol) -> bool {";
 "        self.is_ident(word.0)";
 "    }";
 "}";
 "";
 "impl fmt::Display for Symbol {";
 "    fn fmt(&self, formatter: &mut fmt::Formatter<'_>) -> fmt::Result {";
 "        formatter.write_str(self.0)";
 "    }";
 "}";
 "";
 "impl Deref for Symbol {";
 "    type Target = str;";
 "";
 "    fn deref(&self) -> &Self::Target {";
 "        self.0";
 "    }";
 "}"].
