(** The parts of [core] that the files of [SrcText] call, written in the same language.

    This is not code of /repo: it is what the documentation and the source of the standard
    library say of [Option], [bool::then_some], [usize::from] and the iterators
    [option::{Iter, IterMut, IntoIter}] (here [Item]), [iter::Map], [iter::Chain] and
    [iter::Copied].  [Any] is where the provided methods of [Iterator] are looked up.  Its
    behaviour is trusted, as that of [Std]. *)
Require Import List String.
Import ListNotations.
Open Scope string_scope.

(** Used by src/map/storage/boolean.rs:226-370 and the others. *)
Definition text_core : list string := [
  "enum Result<T, E> {";
  "    Ok(T),";
  "    Err(E),";
  "}";
  "enum Option<T> {";
  "    None,";
  "    Some(T),";
  "}";
  "impl<T> Option<T> {";
  "    fn default() -> Option<T> { None }";
  "    fn is_some(&self) -> bool { match self { Some(_) => true, None => false } }";
  "    fn is_none(&self) -> bool { !self.is_some() }";
  "    fn as_ref(&self) -> Option<&T> { match self { Some(x) => Some(x), None => None } }";
  "    fn as_mut(&mut self) -> Option<&mut T> { match self { Some(x) => Some(x), None => None } }";
  "    fn take(&mut self) -> Option<T> { mem::replace(self, None) }";
  "    fn replace(&mut self, value: T) -> Option<T> { mem::replace(self, Some(value)) }";
  "    fn map<U, F>(self, f: F) -> Option<U> { match self { Some(x) => Some(f(x)), None => None } }";
  "    fn or_else<F>(self, f: F) -> Option<T> { match self { Some(x) => Some(x), None => f() } }";
  "    fn copied(self) -> Option<T> { match self { Some(&v) => Some(v), None => None } }";
  "    unsafe fn unwrap_unchecked(self) -> T {";
  "        match self { Some(val) => val, None => hint::unreachable_unchecked() }";
  "    }";
  "    fn iter(&self) -> Item<&T> { Item { opt: self.as_ref() } }";
  "    fn iter_mut(&mut self) -> Item<&mut T> { Item { opt: self.as_mut() } }";
  "    fn into_iter(self) -> Item<T> { Item { opt: self } }";
  "    fn clone(&self) -> Option<T> { match self { Some(x) => Some(x.clone()), None => None } }";
  "    fn eq(&self, other: &Option<T>) -> bool {";
  "        match (self, other) {";
  "            (Some(l), Some(r)) => *l == *r,";
  "            (None, None) => true,";
  "            _ => false,";
  "        }";
  "    }";
  "}";
  "#[derive(Clone)]";
  "struct Item<A> {";
  "    opt: Option<A>,";
  "}";
  "impl<A> Item<A> {";
  "    fn next(&mut self) -> Option<A> { self.opt.take() }";
  "    fn next_back(&mut self) -> Option<A> { self.opt.take() }";
  "    fn size_hint(&self) -> (usize, Option<usize>) {";
  "        let len = usize::from(self.opt.is_some());";
  "        (len, Some(len))";
  "    }";
  "}";
  "impl bool {";
  "    fn then_some<T>(self, t: T) -> Option<T> { if self { Some(t) } else { None } }";
  "}";
  "impl usize {";
  "    fn from(b: bool) -> usize { if b { 1 } else { 0 } }";
  "}";
  "impl<I> Iterator for Any<I> {";
  "    fn map<F>(self, f: F) -> MapIter<I, F> { MapIter { iter: self, f } }";
  "    fn chain<U>(self, other: U) -> Chain<I, U> { Chain { a: Some(self), b: Some(other.into_iter()) } }";
  "    fn copied(self) -> Copied<I> { Copied { it: self } }";
  "    fn fold<B, F>(self, init: B, f: F) -> B {";
  "        let mut acc = init;";
  "        while let Some(x) = self.next() {";
  "            acc = f(mem::replace(&mut acc, ()), x);";
  "        }";
  "        acc";
  "    }";
  "}";
  "impl<I> IntoIterator for Any<I> {";
  "    fn into_iter(self) -> I { self }";
  "}";
  "#[derive(Clone)]";
  "struct MapIter<I, F> {";
  "    iter: I,";
  "    f: F,";
  "}";
  "impl<I, F> MapIter<I, F> {";
  "    fn next(&mut self) -> Option<B> { self.iter.next().map(&mut self.f) }";
  "    fn next_back(&mut self) -> Option<B> { self.iter.next_back().map(&mut self.f) }";
  "    fn size_hint(&self) -> (usize, Option<usize>) { self.iter.size_hint() }";
  "}";
  "#[derive(Clone)]";
  "struct Copied<I> {";
  "    it: I,";
  "}";
  "impl<I> Copied<I> {";
  "    fn next(&mut self) -> Option<T> { self.it.next().copied() }";
  "    fn next_back(&mut self) -> Option<T> { self.it.next_back().copied() }";
  "    fn size_hint(&self) -> (usize, Option<usize>) { self.it.size_hint() }";
  "}";
  "#[derive(Clone)]";
  "struct Chain<A, B> {";
  "    a: Option<A>,";
  "    b: Option<B>,";
  "}";
  "impl<A, B> Chain<A, B> {";
  "    fn next(&mut self) -> Option<T> {";
  "        and_then_or_clear(&mut self.a, |a| a.next()).or_else(|| self.b.as_mut()?.next())";
  "    }";
  "    fn next_back(&mut self) -> Option<T> {";
  "        and_then_or_clear(&mut self.b, |b| b.next_back()).or_else(|| self.a.as_mut()?.next_back())";
  "    }";
  "    fn size_hint(&self) -> (usize, Option<usize>) {";
  "        match (&self.a, &self.b) {";
  "            (Some(a), Some(b)) => {";
  "                let (a_lower, a_upper) = a.size_hint();";
  "                let (b_lower, b_upper) = b.size_hint();";
  "                let lower = a_lower.saturating_add(b_lower);";
  "                let upper = match (a_upper, b_upper) {";
  "                    (Some(x), Some(y)) => x.checked_add(y),";
  "                    _ => None,";
  "                };";
  "                (lower, upper)";
  "            }";
  "            (Some(a), None) => a.size_hint(),";
  "            (None, Some(b)) => b.size_hint(),";
  "            (None, None) => (0, Some(0)),";
  "        }";
  "    }";
  "}";
  "fn and_then_or_clear<T, U>(opt: &mut Option<T>, f: F) -> Option<U> {";
  "    let x = f(opt.as_mut()?);";
  "    if x.is_none() {";
  "        *opt = None;";
  "    }";
  "    x";
  "}"
].

(** The entries of hash tables, hashbrown::hash_map::Entry (src/map/storage/hashbrown.rs:9). *)
Definition text_hash : list string := [
  "enum HashMapEntry<K, V> {";
  "    Occupied(OccupiedEntry<K, V>),";
  "    Vacant(VacantEntry<K, V>),";
  "}"
].
