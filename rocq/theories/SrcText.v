(** The text of source files of /repo, line by line (a double quote is
    written twice, as Coq demands).  Each definition is one whole file, of which all lines are cited. *)
Require Import String List.
Import ListNotations.
Open Scope string_scope.

(** src/map/storage/boolean.rs:1-370. *)
Definition text_map_boolean : list string :=
["// Iterators are confusing if they impl `Copy`.";
 "";
 "#![allow(missing_copy_implementations)]";
 "";
 "use core::iter;";
 "use core::option;";
 "";
 "use crate::map::{Entry, MapStorage, OccupiedEntry, VacantEntry};";
 "use crate::option_bucket::{NoneBucket, OptionBucket, SomeBucket};";
 "";
 "const TRUE_BIT: u8 = 0b10;";
 "const FALSE_BIT: u8 = 0b01;";
 "";
 "type Iter<'a, V> = iter::Chain<";
 "    iter::Map<option::Iter<'a, V>, fn(&'a V) -> (bool, &'a V)>,";
 "    iter::Map<option::Iter<'a, V>, fn(&'a V) -> (bool, &'a V)>,";
 ">;";
 "type Values<'a, V> = iter::Chain<option::Iter<'a, V>, option::Iter<'a, V>>;";
 "type IterMut<'a, V> = iter::Chain<";
 "    iter::Map<option::IterMut<'a, V>, fn(&'a mut V) -> (bool, &'a mut V)>,";
 "    iter::Map<option::IterMut<'a, V>, fn(&'a mut V) -> (bool, &'a mut V)>,";
 ">;";
 "type ValuesMut<'a, V> = iter::Chain<option::IterMut<'a, V>, option::IterMut<'a, V>>;";
 "type IntoIter<V> = iter::Chain<";
 "    iter::Map<option::IntoIter<V>, fn(V) -> (bool, V)>,";
 "    iter::Map<option::IntoIter<V>, fn(V) -> (bool, V)>,";
 ">;";
 "";
 "/// [`MapStorage`] for [`bool`] types.";
 "///";
 "/// # Examples";
 "///";
 "/// ```";
 "/// use fixed_map::{Key, Map};";
 "///";
 "/// #[derive(Debug, Clone, Copy, PartialEq, Key)]";
 "/// enum MyKey {";
 "///     First(bool),";
 "///     Second,";
 "/// }";
 "///";
 "/// let mut a = Map::new();";
 "/// a.insert(MyKey::First(false), 1);";
 "///";
 "/// assert_eq!(a.get(MyKey::First(true)), None);";
 "/// assert_eq!(a.get(MyKey::First(false)), Some(&1));";
 "/// assert_eq!(a.get(MyKey::Second), None);";
 "///";
 "/// assert!(a.iter().eq([(MyKey::First(false), &1)]));";
 "/// assert!(a.values().copied().eq([1]));";
 "/// assert!(a.keys().eq([MyKey::First(false)]));";
 "/// ```";
 "///";
 "/// Iterator over boolean storage:";
 "///";
 "/// ```";
 "/// use fixed_map::{Key, Map};";
 "///";
 "/// #[derive(Debug, Clone, Copy, PartialEq, Key)]";
 "/// enum MyKey {";
 "///     Bool(bool),";
 "///     Other,";
 "/// }";
 "///";
 "/// let mut a = Map::new();";
 "/// a.insert(MyKey::Bool(true), 1);";
 "/// a.insert(MyKey::Bool(false), 2);";
 "///";
 "/// assert!(a.iter().eq([(MyKey::Bool(true), &1), (MyKey::Bool(false), &2)]));";
 "/// assert_eq!(a.iter().rev().collect::<Vec<_>>(), vec![(MyKey::Bool(false), &2), (MyKey::Bool(true), &1)]);";
 "/// ```";
 "";
 "#[derive(Clone, Copy, PartialEq, Eq)]";
 "pub struct BooleanMapStorage<V> {";
 "    t: Option<V>,";
 "    f: Option<V>,";
 "}";
 "";
 "/// See [`BooleanMapStorage::keys`].";
 "pub struct Keys {";
 "    bits: u8,";
 "}";
 "";
 "impl Clone for Keys {";
 "    #[inline]";
 "    fn clone(&self) -> Keys {";
 "        Keys { bits: self.bits }";
 "    }";
 "}";
 "";
 "impl Iterator for Keys {";
 "    type Item = bool;";
 "";
 "    #[inline]";
 "    fn next(&mut self) -> Option<Self::Item> {";
 "        if self.bits & TRUE_BIT != 0 {";
 "            self.bits &= !TRUE_BIT;";
 "            return Some(true);";
 "        }";
 "";
 "        if self.bits & FALSE_BIT != 0 {";
 "            self.bits &= !FALSE_BIT;";
 "            return Some(false);";
 "        }";
 "";
 "        None";
 "    }";
 "";
 "    #[inline]";
 "    fn size_hint(&self) -> (usize, Option<usize>) {";
 "        let len = self.bits.count_ones() as usize;";
 "        (len, Some(len))";
 "    }";
 "}";
 "";
 "impl DoubleEndedIterator for Keys {";
 "    #[inline]";
 "    fn next_back(&mut self) -> Option<Self::Item> {";
 "        if self.bits & FALSE_BIT != 0 {";
 "            self.bits &= !FALSE_BIT;";
 "            return Some(false);";
 "        }";
 "";
 "        if self.bits & TRUE_BIT != 0 {";
 "            self.bits &= !TRUE_BIT;";
 "            return Some(true);";
 "        }";
 "";
 "        None";
 "    }";
 "}";
 "";
 "impl ExactSizeIterator for Keys {";
 "    #[inline]";
 "    fn len(&self) -> usize {";
 "        self.bits.count_ones() as usize";
 "    }";
 "}";
 "";
 "pub struct Vacant<'a, V> {";
 "    key: bool,";
 "    inner: NoneBucket<'a, V>,";
 "}";
 "";
 "pub struct Occupied<'a, V> {";
 "    key: bool,";
 "    inner: SomeBucket<'a, V>,";
 "}";
 "";
 "impl<'a, V> VacantEntry<'a, bool, V> for Vacant<'a, V> {";
 "    #[inline]";
 "    fn key(&self) -> bool {";
 "        self.key";
 "    }";
 "";
 "    #[inline]";
 "    fn insert(self, value: V) -> &'a mut V {";
 "        self.inner.insert(value)";
 "    }";
 "}";
 "";
 "impl<'a, V> OccupiedEntry<'a, bool, V> for Occupied<'a, V> {";
 "    #[inline]";
 "    fn key(&self) -> bool {";
 "        self.key";
 "    }";
 "";
 "    #[inline]";
 "    fn get(&self) -> &V {";
 "        self.inner.as_ref()";
 "    }";
 "";
 "    #[inline]";
 "    fn get_mut(&mut self) -> &mut V {";
 "        self.inner.as_mut()";
 "    }";
 "";
 "    #[inline]";
 "    fn into_mut(self) -> &'a mut V {";
 "        self.inner.into_mut()";
 "    }";
 "";
 "    #[inline]";
 "    fn insert(&mut self, value: V) -> V {";
 "        self.inner.replace(value)";
 "    }";
 "";
 "    #[inline]";
 "    fn remove(self) -> V {";
 "        self.inner.take()";
 "    }";
 "}";
 "";
 "impl<V> MapStorage<bool, V> for BooleanMapStorage<V> {";
 "    type Iter<'this>";
 "        = Iter<'this, V>";
 "    where";
 "        V: 'this;";
 "    type Keys<'this>";
 "        = Keys";
 "    where";
 "        V: 'this;";
 "    type Values<'this>";
 "        = Values<'this, V>";
 "    where";
 "        V: 'this;";
 "    type IterMut<'this>";
 "        = IterMut<'this, V>";
 "    where";
 "        V: 'this;";
 "    type ValuesMut<'this>";
 "        = ValuesMut<'this, V>";
 "    where";
 "        V: 'this;";
 "    type IntoIter = IntoIter<V>;";
 "    type Occupied<'this>";
 "        = Occupied<'this, V>";
 "    where";
 "        V: 'this;";
 "    type Vacant<'this>";
 "        = Vacant<'this, V>";
 "    where";
 "        V: 'this;";
 "";
 "    #[inline]";
 "    fn empty() -> Self {";
 "        Self {";
 "            t: Option::default(),";
 "            f: Option::default(),";
 "        }";
 "    }";
 "";
 "    #[inline]";
 "    fn len(&self) -> usize {";
 "        usize::from(self.t.is_some()).saturating_add(usize::from(self.f.is_some()))";
 "    }";
 "";
 "    #[inline]";
 "    fn is_empty(&self) -> bool {";
 "        self.t.is_none() && self.f.is_none()";
 "    }";
 "";
 "    #[inline]";
 "    fn insert(&mut self, key: bool, value: V) -> Option<V> {";
 "        if key {";
 "            self.t.replace(value)";
 "        } else {";
 "            self.f.replace(value)";
 "        }";
 "    }";
 "";
 "    #[inline]";
 "    fn contains_key(&self, key: bool) -> bool {";
 "        if key {";
 "            self.t.is_some()";
 "        } else {";
 "            self.f.is_some()";
 "        }";
 "    }";
 "";
 "    #[inline]";
 "    fn get(&self, key: bool) -> Option<&V> {";
 "        if key {";
 "            self.t.as_ref()";
 "        } else {";
 "            self.f.as_ref()";
 "        }";
 "    }";
 "";
 "    #[inline]";
 "    fn get_mut(&mut self, key: bool) -> Option<&mut V> {";
 "        if key {";
 "            self.t.as_mut()";
 "        } else {";
 "            self.f.as_mut()";
 "        }";
 "    }";
 "";
 "    #[inline]";
 "    fn remove(&mut self, key: bool) -> Option<V> {";
 "        if key {";
 "            self.t.take()";
 "        } else {";
 "            self.f.take()";
 "        }";
 "    }";
 "";
 "    #[inline]";
 "    fn retain<F>(&mut self, mut func: F)";
 "    where";
 "        F: FnMut(bool, &mut V) -> bool,";
 "    {";
 "        if let Some(t) = self.t.as_mut() {";
 "            if !func(true, t) {";
 "                self.t = None;";
 "            }";
 "        }";
 "        if let Some(f) = self.f.as_mut() {";
 "            if !func(false, f) {";
 "                self.f = None;";
 "            }";
 "        }";
 "    }";
 "";
 "    #[inline]";
 "    fn clear(&mut self) {";
 "        self.t = None;";
 "        self.f = None;";
 "    }";
 "";
 "    #[inline]";
 "    fn iter(&self) -> Self::Iter<'_> {";
 "        let map: fn(_) -> _ = |v| (true, v);";
 "        let a = self.t.iter().map(map);";
 "        let map: fn(_) -> _ = |v| (false, v);";
 "        let b = self.f.iter().map(map);";
 "        a.chain(b)";
 "    }";
 "";
 "    #[inline]";
 "    fn keys(&self) -> Self::Keys<'_> {";
 "        Keys {";
 "            bits: if self.t.is_some() { TRUE_BIT } else { 0 }";
 "                | if self.f.is_some() { FALSE_BIT } else { 0 },";
 "        }";
 "    }";
 "";
 "    #[inline]";
 "    fn values(&self) -> Self::Values<'_> {";
 "        self.t.iter().chain(self.f.iter())";
 "    }";
 "";
 "    #[inline]";
 "    fn iter_mut(&mut self) -> Self::IterMut<'_> {";
 "        let map: fn(_) -> _ = |v| (true, v);";
 "        let a = self.t.iter_mut().map(map);";
 "        let map: fn(_) -> _ = |v| (false, v);";
 "        let b = self.f.iter_mut().map(map);";
 "        a.chain(b)";
 "    }";
 "";
 "    #[inline]";
 "    fn values_mut(&mut self) -> Self::ValuesMut<'_> {";
 "        self.t.iter_mut().chain(self.f.iter_mut())";
 "    }";
 "";
 "    #[inline]";
 "    fn into_iter(self) -> Self::IntoIter {";
 "        let map: fn(_) -> _ = |v| (true, v);";
 "        let a = self.t.into_iter().map(map);";
 "        let map: fn(_) -> _ = |v| (false, v);";
 "        let b = self.f.into_iter().map(map);";
 "        a.chain(b)";
 "    }";
 "";
 "    #[inline]";
 "    fn entry(&mut self, key: bool) -> Entry<'_, Self, bool, V> {";
 "        if key {";
 "            match OptionBucket::new(&mut self.t) {";
 "                OptionBucket::Some(inner) => Entry::Occupied(Occupied { key, inner }),";
 "                OptionBucket::None(inner) => Entry::Vacant(Vacant { key, inner }),";
 "            }";
 "        } else {";
 "            match OptionBucket::new(&mut self.f) {";
 "                OptionBucket::Some(inner) => Entry::Occupied(Occupied { key, inner }),";
 "                OptionBucket::None(inner) => Entry::Vacant(Vacant { key, inner }),";
 "            }";
 "        }";
 "    }";
 "}"].

(** src/map/storage/singleton.rs:1-153. *)
Definition text_map_singleton : list string :=
["use crate::map::{Entry, MapStorage};";
 "use crate::option_bucket::{NoneBucket, OptionBucket, SomeBucket};";
 "";
 "/// [`MapStorage`] type that can only inhabit a single value (like `()`).";
 "#[repr(transparent)]";
 "#[derive(Clone, Copy)]";
 "pub struct SingletonMapStorage<V> {";
 "    inner: Option<V>,";
 "}";
 "";
 "impl<V> PartialEq for SingletonMapStorage<V>";
 "where";
 "    V: PartialEq,";
 "{";
 "    #[inline]";
 "    fn eq(&self, other: &Self) -> bool {";
 "        self.inner == other.inner";
 "    }";
 "}";
 "";
 "impl<V> Eq for SingletonMapStorage<V> where V: Eq {}";
 "";
 "impl<K, V> MapStorage<K, V> for SingletonMapStorage<V>";
 "where";
 "    K: Default,";
 "{";
 "    type Iter<'this>";
 "        = core::option::IntoIter<(K, &'this V)>";
 "    where";
 "        V: 'this;";
 "    type Keys<'this>";
 "        = core::option::IntoIter<K>";
 "    where";
 "        V: 'this;";
 "    type Values<'this>";
 "        = core::option::Iter<'this, V>";
 "    where";
 "        V: 'this;";
 "    type IterMut<'this>";
 "        = core::option::IntoIter<(K, &'this mut V)>";
 "    where";
 "        V: 'this;";
 "    type ValuesMut<'this>";
 "        = core::option::IterMut<'this, V>";
 "    where";
 "        V: 'this;";
 "    type IntoIter = core::option::IntoIter<(K, V)>;";
 "    type Occupied<'this>";
 "        = SomeBucket<'this, V>";
 "    where";
 "        V: 'this;";
 "    type Vacant<'this>";
 "        = NoneBucket<'this, V>";
 "    where";
 "        V: 'this;";
 "";
 "    #[inline]";
 "    fn empty() -> Self {";
 "        Self {";
 "            inner: Option::default(),";
 "        }";
 "    }";
 "";
 "    #[inline]";
 "    fn len(&self) -> usize {";
 "        usize::from(self.inner.is_some())";
 "    }";
 "";
 "    #[inline]";
 "    fn is_empty(&self) -> bool {";
 "        self.inner.is_none()";
 "    }";
 "";
 "    #[inline]";
 "    fn insert(&mut self, _: K, value: V) -> Option<V> {";
 "        self.inner.replace(value)";
 "    }";
 "";
 "    #[inline]";
 "    fn contains_key(&self, _: K) -> bool {";
 "        self.inner.is_some()";
 "    }";
 "";
 "    #[inline]";
 "    fn get(&self, _: K) -> Option<&V> {";
 "        self.inner.as_ref()";
 "    }";
 "";
 "    #[inline]";
 "    fn get_mut(&mut self, _: K) -> Option<&mut V> {";
 "        self.inner.as_mut()";
 "    }";
 "";
 "    #[inline]";
 "    fn remove(&mut self, _: K) -> Option<V> {";
 "        self.inner.take()";
 "    }";
 "";
 "    #[inline]";
 "    fn retain<F>(&mut self, mut func: F)";
 "    where";
 "        F: FnMut(K, &mut V) -> bool,";
 "    {";
 "        if let Some(val) = self.inner.as_mut() {";
 "            if !func(K::default(), val) {";
 "                self.inner = None;";
 "            }";
 "        }";
 "    }";
 "";
 "    #[inline]";
 "    fn clear(&mut self) {";
 "        self.inner = None;";
 "    }";
 "";
 "    #[inline]";
 "    fn iter(&self) -> Self::Iter<'_> {";
 "        self.inner.as_ref().map(|v| (K::default(), v)).into_iter()";
 "    }";
 "";
 "    #[inline]";
 "    fn keys(&self) -> Self::Keys<'_> {";
 "        Some(K::default()).into_iter()";
 "    }";
 "";
 "    #[inline]";
 "    fn values(&self) -> Self::Values<'_> {";
 "        self.inner.iter()";
 "    }";
 "";
 "    #[inline]";
 "    fn iter_mut(&mut self) -> Self::IterMut<'_> {";
 "        self.inner.as_mut().map(|v| (K::default(), v)).into_iter()";
 "    }";
 "";
 "    #[inline]";
 "    fn values_mut(&mut self) -> Self::ValuesMut<'_> {";
 "        self.inner.iter_mut()";
 "    }";
 "";
 "    #[inline]";
 "    fn into_iter(self) -> Self::IntoIter {";
 "        self.inner.map(|v| (K::default(), v)).into_iter()";
 "    }";
 "";
 "    #[inline]";
 "    fn entry(&mut self, _key: K) -> Entry<'_, Self, K, V> {";
 "        match OptionBucket::new(&mut self.inner) {";
 "            OptionBucket::Some(some) => Entry::Occupied(some),";
 "            OptionBucket::None(none) => Entry::Vacant(none),";
 "        }";
 "    }";
 "}"].

(** src/map/storage/option.rs:1-390. *)
Definition text_map_option : list string :=
["use core::iter;";
 "use core::option;";
 "";
 "use crate::map::{Entry, MapStorage, OccupiedEntry, VacantEntry};";
 "use crate::option_bucket::{NoneBucket, OptionBucket, SomeBucket};";
 "use crate::Key;";
 "";
 "type Iter<'a, K, V> = iter::Chain<";
 "    iter::Map<";
 "        <<K as Key>::MapStorage<V> as MapStorage<K, V>>::Iter<'a>,";
 "        fn((K, &'a V)) -> (Option<K>, &'a V),";
 "    >,";
 "    iter::Map<option::Iter<'a, V>, fn(&'a V) -> (Option<K>, &'a V)>,";
 ">;";
 "type Keys<'a, K, V> = iter::Chain<";
 "    iter::Map<<<K as Key>::MapStorage<V> as MapStorage<K, V>>::Keys<'a>, fn(K) -> Option<K>>,";
 "    option::IntoIter<Option<K>>,";
 ">;";
 "type Values<'a, K, V> =";
 "    iter::Chain<<<K as Key>::MapStorage<V> as MapStorage<K, V>>::Values<'a>, option::Iter<'a, V>>;";
 "type IterMut<'a, K, V> = iter::Chain<";
 "    iter::Map<";
 "        <<K as Key>::MapStorage<V> as MapStorage<K, V>>::IterMut<'a>,";
 "        fn((K, &'a mut V)) -> (Option<K>, &'a mut V),";
 "    >,";
 "    iter::Map<option::IterMut<'a, V>, fn(&'a mut V) -> (Option<K>, &'a mut V)>,";
 ">;";
 "type ValuesMut<'a, K, V> = iter::Chain<";
 "    <<K as Key>::MapStorage<V> as MapStorage<K, V>>::ValuesMut<'a>,";
 "    option::IterMut<'a, V>,";
 ">;";
 "type IntoIter<K, V> = iter::Chain<";
 "    iter::Map<";
 "        <<K as Key>::MapStorage<V> as MapStorage<K, V>>::IntoIter,";
 "        fn((K, V)) -> (Option<K>, V),";
 "    >,";
 "    iter::Map<option::IntoIter<V>, fn(V) -> (Option<K>, V)>,";
 ">;";
 "";
 "/// [`MapStorage`] for [`Option`] types.";
 "///";
 "/// # Examples";
 "///";
 "/// ```";
 "/// use fixed_map::{Key, Map};";
 "///";
 "/// #[derive(Debug, Clone, Copy, PartialEq, Key)]";
 "/// enum Part {";
 "///     A,";
 "///     B,";
 "/// }";
 "///";
 "/// #[derive(Debug, Clone, Copy, PartialEq, Key)]";
 "/// enum MyKey {";
 "///     First(Option<Part>),";
 "///     Second,";
 "/// }";
 "///";
 "/// let mut a = Map::new();";
 "/// a.insert(MyKey::First(None), 1);";
 "/// a.insert(MyKey::First(Some(Part::A)), 2);";
 "///";
 "/// assert_eq!(a.get(MyKey::First(Some(Part::A))), Some(&2));";
 "/// assert_eq!(a.get(MyKey::First(Some(Part::B))), None);";
 "/// assert_eq!(a.get(MyKey::First(None)), Some(&1));";
 "/// assert_eq!(a.get(MyKey::Second), None);";
 "///";
 "/// assert!(a.iter().eq([(MyKey::First(Some(Part::A)), &2), (MyKey::First(None), &1)]));";
 "/// assert!(a.values().copied().eq([2, 1]));";
 "/// assert!(a.keys().eq([MyKey::First(Some(Part::A)), MyKey::First(None)]));";
 "/// ```";
 "pub struct OptionMapStorage<K, V>";
 "where";
 "    K: Key,";
 "{";
 "    some: K::MapStorage<V>,";
 "    none: Option<V>,";
 "}";
 "";
 "impl<K, V> Clone for OptionMapStorage<K, V>";
 "where";
 "    K: Key,";
 "    V: Clone,";
 "    K::MapStorage<V>: Clone,";
 "{";
 "    #[inline]";
 "    fn clone(&self) -> Self {";
 "        Self {";
 "            some: self.some.clone(),";
 "            none: self.none.clone(),";
 "        }";
 "    }";
 "}";
 "";
 "impl<K, V> Copy for OptionMapStorage<K, V>";
 "where";
 "    K: Key,";
 "    V: Copy,";
 "    K::MapStorage<V>: Copy,";
 "{";
 "}";
 "";
 "impl<K, V> PartialEq for OptionMapStorage<K, V>";
 "where";
 "    K: Key,";
 "    K::MapStorage<V>: PartialEq,";
 "    V: PartialEq,";
 "{";
 "    #[inline]";
 "    fn eq(&self, other: &Self) -> bool {";
 "        self.none == other.none && self.some == other.some";
 "    }";
 "}";
 "";
 "impl<K, V> Eq for OptionMapStorage<K, V>";
 "where";
 "    K: Key,";
 "    K::MapStorage<V>: Eq,";
 "    V: Eq,";
 "{";
 "}";
 "";
 "pub enum Vacant<'a, K: 'a, V>";
 "where";
 "    K: Key,";
 "{";
 "    None(NoneBucket<'a, V>),";
 "    Some(<K::MapStorage<V> as MapStorage<K, V>>::Vacant<'a>),";
 "}";
 "";
 "pub enum Occupied<'a, K: 'a, V>";
 "where";
 "    K: Key,";
 "{";
 "    None(SomeBucket<'a, V>),";
 "    Some(<K::MapStorage<V> as MapStorage<K, V>>::Occupied<'a>),";
 "}";
 "";
 "impl<'a, K, V> VacantEntry<'a, Option<K>, V> for Vacant<'a, K, V>";
 "where";
 "    K: Key,";
 "{";
 "    #[inline]";
 "    fn key(&self) -> Option<K> {";
 "        match self {";
 "            Vacant::None(_) => None,";
 "            Vacant::Some(entry) => Some(entry.key()),";
 "        }";
 "    }";
 "";
 "    #[inline]";
 "    fn insert(self, value: V) -> &'a mut V {";
 "        match self {";
 "            Vacant::None(entry) => entry.insert(value),";
 "            Vacant::Some(entry) => entry.insert(value),";
 "        }";
 "    }";
 "}";
 "";
 "impl<'a, K, V> OccupiedEntry<'a, Option<K>, V> for Occupied<'a, K, V>";
 "where";
 "    K: Key,";
 "{";
 "    #[inline]";
 "    fn key(&self) -> Option<K> {";
 "        match self {";
 "            Occupied::None(_) => None,";
 "            Occupied::Some(entry) => Some(entry.key()),";
 "        }";
 "    }";
 "";
 "    #[inline]";
 "    fn get(&self) -> &V {";
 "        match self {";
 "            Occupied::None(entry) => entry.as_ref(),";
 "            Occupied::Some(entry) => entry.get(),";
 "        }";
 "    }";
 "";
 "    #[inline]";
 "    fn get_mut(&mut self) -> &mut V {";
 "        match self {";
 "            Occupied::None(entry) => entry.as_mut(),";
 "            Occupied::Some(entry) => entry.get_mut(),";
 "        }";
 "    }";
 "";
 "    #[inline]";
 "    fn into_mut(self) -> &'a mut V {";
 "        match self {";
 "            Occupied::None(entry) => entry.into_mut(),";
 "            Occupied::Some(entry) => entry.into_mut(),";
 "        }";
 "    }";
 "";
 "    #[inline]";
 "    fn insert(&mut self, value: V) -> V {";
 "        match self {";
 "            Occupied::None(entry) => entry.replace(value),";
 "            Occupied::Some(entry) => entry.insert(value),";
 "        }";
 "    }";
 "";
 "    #[inline]";
 "    fn remove(self) -> V {";
 "        match self {";
 "            Occupied::None(entry) => entry.take(),";
 "            Occupied::Some(entry) => entry.remove(),";
 "        }";
 "    }";
 "}";
 "";
 "impl<K, V> MapStorage<Option<K>, V> for OptionMapStorage<K, V>";
 "where";
 "    K: Key,";
 "{";
 "    type Iter<'this>";
 "        = Iter<'this, K, V>";
 "    where";
 "        K: 'this,";
 "        V: 'this;";
 "    type Keys<'this>";
 "        = Keys<'this, K, V>";
 "    where";
 "        K: 'this,";
 "        V: 'this;";
 "    type Values<'this>";
 "        = Values<'this, K, V>";
 "    where";
 "        K: 'this,";
 "        V: 'this;";
 "    type IterMut<'this>";
 "        = IterMut<'this, K, V>";
 "    where";
 "        K: 'this,";
 "        V: 'this;";
 "    type ValuesMut<'this>";
 "        = ValuesMut<'this, K, V>";
 "    where";
 "        K: 'this,";
 "        V: 'this;";
 "    type IntoIter = IntoIter<K, V>;";
 "    type Occupied<'this>";
 "        = Occupied<'this, K, V>";
 "    where";
 "        K: 'this,";
 "        V: 'this;";
 "    type Vacant<'this>";
 "        = Vacant<'this, K, V>";
 "    where";
 "        K: 'this,";
 "        V: 'this;";
 "";
 "    #[inline]";
 "    fn empty() -> Self {";
 "        Self {";
 "            some: K::MapStorage::empty(),";
 "            none: Option::default(),";
 "        }";
 "    }";
 "";
 "    #[inline]";
 "    fn len(&self) -> usize {";
 "        self.some.len() + usize::from(self.none.is_some())";
 "    }";
 "";
 "    #[inline]";
 "    fn is_empty(&self) -> bool {";
 "        self.some.is_empty() && self.none.is_none()";
 "    }";
 "";
 "    #[inline]";
 "    fn insert(&mut self, key: Option<K>, value: V) -> Option<V> {";
 "        match key {";
 "            Some(key) => self.some.insert(key, value),";
 "            None => self.none.replace(value),";
 "        }";
 "    }";
 "";
 "    #[inline]";
 "    fn contains_key(&self, key: Option<K>) -> bool {";
 "        match key {";
 "            Some(key) => self.some.contains_key(key),";
 "            None => self.none.is_some(),";
 "        }";
 "    }";
 "";
 "    #[inline]";
 "    fn get(&self, key: Option<K>) -> Option<&V> {";
 "        match key {";
 "            Some(key) => self.some.get(key),";
 "            None => self.none.as_ref(),";
 "        }";
 "    }";
 "";
 "    #[inline]";
 "    fn get_mut(&mut self, key: Option<K>) -> Option<&mut V> {";
 "        match key {";
 "            Some(key) => self.some.get_mut(key),";
 "            None => self.none.as_mut(),";
 "        }";
 "    }";
 "";
 "    #[inline]";
 "    fn remove(&mut self, key: Option<K>) -> Option<V> {";
 "        match key {";
 "            Some(key) => self.some.remove(key),";
 "            None => self.none.take(),";
 "        }";
 "    }";
 "";
 "    #[inline]";
 "    fn retain<F>(&mut self, mut func: F)";
 "    where";
 "        F: FnMut(Option<K>, &mut V) -> bool,";
 "    {";
 "        self.some.retain(|k, v| func(Some(k), v));";
 "        if let Some(none) = self.none.as_mut() {";
 "            if !func(None, none) {";
 "                self.none = None;";
 "            }";
 "        }";
 "    }";
 "";
 "    #[inline]";
 "    fn clear(&mut self) {";
 "        self.some.clear();";
 "        self.none = None;";
 "    }";
 "";
 "    #[inline]";
 "    fn iter(&self) -> Self::Iter<'_> {";
 "        let map: fn(_) -> _ = |(k, b)| (Some(k), b);";
 "        let a = self.some.iter().map(map);";
 "        let map: fn(_) -> _ = |v| (None, v);";
 "        let b = self.none.iter().map(map);";
 "        a.chain(b)";
 "    }";
 "";
 "    #[inline]";
 "    fn keys(&self) -> Self::Keys<'_> {";
 "        let map: fn(_) -> _ = |k| Some(k);";
 "        self.some";
 "            .keys()";
 "            .map(map)";
 "            .chain(self.none.is_some().then_some(None::<K>))";
 "    }";
 "";
 "    #[inline]";
 "    fn values(&self) -> Self::Values<'_> {";
 "        self.some.values().chain(self.none.iter())";
 "    }";
 "";
 "    #[inline]";
 "    fn iter_mut(&mut self) -> Self::IterMut<'_> {";
 "        let map: fn(_) -> _ = |(k, b)| (Some(k), b);";
 "        let a = self.some.iter_mut().map(map);";
 "        let map: fn(_) -> _ = |v| (None, v);";
 "        let b = self.none.iter_mut().map(map);";
 "        a.chain(b)";
 "    }";
 "";
 "    #[inline]";
 "    fn values_mut(&mut self) -> Self::ValuesMut<'_> {";
 "        self.some.values_mut().chain(self.none.iter_mut())";
 "    }";
 "";
 "    #[inline]";
 "    fn into_iter(self) -> Self::IntoIter {";
 "        let map: fn(_) -> _ = |(k, b)| (Some(k), b);";
 "        let a = self.some.into_iter().map(map);";
 "        let map: fn(_) -> _ = |v| (None, v);";
 "        let b = self.none.into_iter().map(map);";
 "        a.chain(b)";
 "    }";
 "";
 "    #[inline]";
 "    fn entry(&mut self, key: Option<K>) -> Entry<'_, Self, Option<K>, V> {";
 "        match key {";
 "            Some(key) => match self.some.entry(key) {";
 "                Entry::Occupied(entry) => Entry::Occupied(Occupied::Some(entry)),";
 "                Entry::Vacant(entry) => Entry::Vacant(Vacant::Some(entry)),";
 "            },";
 "            None => match OptionBucket::new(&mut self.none) {";
 "                OptionBucket::Some(some) => Entry::Occupied(Occupied::None(some)),";
 "                OptionBucket::None(none) => Entry::Vacant(Vacant::None(none)),";
 "            },";
 "        }";
 "    }";
 "}"].

(** src/map/storage/hashbrown.rs:1-260. *)
Definition text_map_hashbrown : list string :=
["use core::hash::Hash;";
 "use core::iter;";
 "";
 "use crate::map::{Entry, MapStorage, OccupiedEntry, VacantEntry};";
 "";
 "type S = ::hashbrown::hash_map::DefaultHashBuilder;";
 "type Occupied<'a, K, V> = ::hashbrown::hash_map::OccupiedEntry<'a, K, V, S>;";
 "type Vacant<'a, K, V> = ::hashbrown::hash_map::VacantEntry<'a, K, V, S>;";
 "type HashMapEntry<'a, K, V> = ::hashbrown::hash_map::Entry<'a, K, V, S>;";
 "";
 "/// [`MapStorage`] for dynamic types, using [`hashbrown::HashMap`].";
 "///";
 "/// This allows for dynamic types such as `&'static str` or `u32` to be used as";
 "/// a [`Key`][crate::Key].";
 "///";
 "/// # Examples";
 "///";
 "/// ```";
 "/// use fixed_map::{Key, Map};";
 "///";
 "/// #[derive(Clone, Copy, Key)]";
 "/// enum MyKey {";
 "///     First(u32),";
 "///     Second,";
 "/// }";
 "///";
 "/// let mut map = Map::new();";
 "/// map.insert(MyKey::First(1), 10);";
 "/// assert_eq!(map.get(MyKey::First(1)).copied(), Some(10));";
 "/// assert_eq!(map.get(MyKey::First(2)), None);";
 "/// assert_eq!(map.get(MyKey::Second), None);";
 "/// ```";
 "#[repr(transparent)]";
 "pub struct HashbrownMapStorage<K, V> {";
 "    inner: ::hashbrown::HashMap<K, V>,";
 "}";
 "";
 "impl<K, V> Clone for HashbrownMapStorage<K, V>";
 "where";
 "    K: Clone,";
 "    V: Clone,";
 "{";
 "    #[inline]";
 "    fn clone(&self) -> Self {";
 "        Self {";
 "            inner: self.inner.clone(),";
 "        }";
 "    }";
 "}";
 "";
 "impl<K, V> PartialEq for HashbrownMapStorage<K, V>";
 "where";
 "    K: Eq + Hash,";
 "    V: PartialEq,";
 "{";
 "    #[inline]";
 "    fn eq(&self, other: &Self) -> bool {";
 "        self.inner.eq(&other.inner)";
 "    }";
 "}";
 "";
 "impl<K, V> Eq for HashbrownMapStorage<K, V>";
 "where";
 "    K: Eq + Hash,";
 "    V: Eq,";
 "{";
 "}";
 "";
 "impl<'a, K, V> OccupiedEntry<'a, K, V> for Occupied<'a, K, V>";
 "where";
 "    K: Copy,";
 "{";
 "    #[inline]";
 "    fn key(&self) -> K {";
 "        *self.key()";
 "    }";
 "";
 "    #[inline]";
 "    fn get(&self) -> &V {";
 "        self.get()";
 "    }";
 "";
 "    #[inline]";
 "    fn get_mut(&mut self) -> &mut V {";
 "        self.get_mut()";
 "    }";
 "";
 "    #[inline]";
 "    fn into_mut(self) -> &'a mut V {";
 "        self.into_mut()";
 "    }";
 "";
 "    #[inline]";
 "    fn insert(&mut self, value: V) -> V {";
 "        self.insert(value)";
 "    }";
 "";
 "    #[inline]";
 "    fn remove(self) -> V {";
 "        self.remove()";
 "    }";
 "}";
 "";
 "impl<'a, K, V> VacantEntry<'a, K, V> for Vacant<'a, K, V>";
 "where";
 "    K: Copy + Hash,";
 "{";
 "    #[inline]";
 "    fn key(&self) -> K {";
 "        *self.key()";
 "    }";
 "";
 "    #[inline]";
 "    fn insert(self, value: V) -> &'a mut V {";
 "        self.insert(value)";
 "    }";
 "}";
 "";
 "impl<K, V> MapStorage<K, V> for HashbrownMapStorage<K, V>";
 "where";
 "    K: Copy + Eq + Hash,";
 "{";
 "    type Iter<'this>";
 "        = iter::Map<";
 "        ::hashbrown::hash_map::Iter<'this, K, V>,";
 "        fn((&'this K, &'this V)) -> (K, &'this V),";
 "    >";
 "    where";
 "        K: 'this,";
 "        V: 'this;";
 "    type Keys<'this>";
 "        = iter::Copied<::hashbrown::hash_map::Keys<'this, K, V>>";
 "    where";
 "        K: 'this,";
 "        V: 'this;";
 "    type Values<'this>";
 "        = ::hashbrown::hash_map::Values<'this, K, V>";
 "    where";
 "        K: 'this,";
 "        V: 'this;";
 "    type IterMut<'this>";
 "        = iter::Map<";
 "        ::hashbrown::hash_map::IterMut<'this, K, V>,";
 "        fn((&'this K, &'this mut V)) -> (K, &'this mut V),";
 "    >";
 "    where";
 "        K: 'this,";
 "        V: 'this;";
 "    type ValuesMut<'this>";
 "        = ::hashbrown::hash_map::ValuesMut<'this, K, V>";
 "    where";
 "        K: 'this,";
 "        V: 'this;";
 "    type IntoIter = ::hashbrown::hash_map::IntoIter<K, V>;";
 "    type Occupied<'this>";
 "        = Occupied<'this, K, V>";
 "    where";
 "        K: 'this,";
 "        V: 'this;";
 "    type Vacant<'this>";
 "        = Vacant<'this, K, V>";
 "    where";
 "        K: 'this,";
 "        V: 'this;";
 "";
 "    #[inline]";
 "    fn empty() -> Self {";
 "        Self {";
 "            inner: ::hashbrown::HashMap::new(),";
 "        }";
 "    }";
 "";
 "    #[inline]";
 "    fn len(&self) -> usize {";
 "        self.inner.len()";
 "    }";
 "";
 "    #[inline]";
 "    fn is_empty(&self) -> bool {";
 "        self.inner.is_empty()";
 "    }";
 "";
 "    #[inline]";
 "    fn insert(&mut self, key: K, value: V) -> Option<V> {";
 "        self.inner.insert(key, value)";
 "    }";
 "";
 "    #[inline]";
 "    fn contains_key(&self, key: K) -> bool {";
 "        self.inner.contains_key(&key)";
 "    }";
 "";
 "    #[inline]";
 "    fn get(&self, key: K) -> Option<&V> {";
 "        self.inner.get(&key)";
 "    }";
 "";
 "    #[inline]";
 "    fn get_mut(&mut self, key: K) -> Option<&mut V> {";
 "        self.inner.get_mut(&key)";
 "    }";
 "";
 "    #[inline]";
 "    fn remove(&mut self, key: K) -> Option<V> {";
 "        self.inner.remove(&key)";
 "    }";
 "";
 "    #[inline]";
 "    fn retain<F>(&mut self, mut func: F)";
 "    where";
 "        F: FnMut(K, &mut V) -> bool,";
 "    {";
 "        self.inner.retain(|&k, v| func(k, v));";
 "    }";
 "";
 "    #[inline]";
 "    fn clear(&mut self) {";
 "        self.inner.clear();";
 "    }";
 "";
 "    #[inline]";
 "    fn iter(&self) -> Self::Iter<'_> {";
 "        let map: fn(_) -> _ = |(k, v): (&K, &V)| (*k, v);";
 "        self.inner.iter().map(map)";
 "    }";
 "";
 "    #[inline]";
 "    fn keys(&self) -> Self::Keys<'_> {";
 "        self.inner.keys().copied()";
 "    }";
 "";
 "    #[inline]";
 "    fn values(&self) -> Self::Values<'_> {";
 "        self.inner.values()";
 "    }";
 "";
 "    #[inline]";
 "    fn iter_mut(&mut self) -> Self::IterMut<'_> {";
 "        let map: fn(_) -> _ = |(k, v): (&K, &mut V)| (*k, v);";
 "        self.inner.iter_mut().map(map)";
 "    }";
 "";
 "    #[inline]";
 "    fn values_mut(&mut self) -> Self::ValuesMut<'_> {";
 "        self.inner.values_mut()";
 "    }";
 "";
 "    #[inline]";
 "    fn into_iter(self) -> Self::IntoIter {";
 "        self.inner.into_iter()";
 "    }";
 "";
 "    #[inline]";
 "    fn entry(&mut self, key: K) -> Entry<'_, Self, K, V> {";
 "        match self.inner.entry(key) {";
 "            HashMapEntry::Occupied(entry) => Entry::Occupied(entry),";
 "            HashMapEntry::Vacant(entry) => Entry::Vacant(entry),";
 "        }";
 "    }";
 "}"].

(** src/set/storage/boolean.rs:1-198. *)
Definition text_set_boolean : list string :=
["// Iterators are confusing if they impl `Copy`.";
 "#![allow(missing_copy_implementations)]";
 "";
 "use core::mem;";
 "";
 "use crate::set::SetStorage;";
 "";
 "const TRUE_BIT: u8 = 0b10;";
 "const FALSE_BIT: u8 = 0b01;";
 "";
 "/// [`SetStorage`] for [`bool`] types.";
 "///";
 "/// # Examples";
 "///";
 "/// ```";
 "/// use fixed_map::{Key, Set};";
 "///";
 "/// #[derive(Debug, Clone, Copy, PartialEq, Key)]";
 "/// enum MyKey {";
 "///     First(bool),";
 "///     Second,";
 "/// }";
 "///";
 "/// let mut a = Set::new();";
 "/// a.insert(MyKey::First(false));";
 "///";
 "/// assert!(!a.contains(MyKey::First(true)));";
 "/// assert!(a.contains(MyKey::First(false)));";
 "/// assert!(!a.contains(MyKey::Second));";
 "///";
 "/// assert!(a.iter().eq([MyKey::First(false)]));";
 "/// ```";
 "///";
 "/// Iterator over boolean set:";
 "///";
 "/// ```";
 "/// use fixed_map::{Key, Set};";
 "///";
 "/// #[derive(Debug, Clone, Copy, PartialEq, Key)]";
 "/// enum MyKey {";
 "///     Bool(bool),";
 "///     Other,";
 "/// }";
 "///";
 "/// let mut a = Set::new();";
 "/// a.insert(MyKey::Bool(true));";
 "/// a.insert(MyKey::Bool(false));";
 "///";
 "/// assert!(a.iter().eq([MyKey::Bool(true), MyKey::Bool(false)]));";
 "/// assert_eq!(a.iter().rev().collect::<Vec<_>>(), vec![MyKey::Bool(false), MyKey::Bool(true)]);";
 "/// ```";
 "#[derive(Clone, Copy, PartialEq, Eq)]";
 "pub struct BooleanSetStorage {";
 "    bits: u8,";
 "}";
 "";
 "/// See [`BooleanSetStorage::iter`].";
 "pub struct Iter {";
 "    bits: u8,";
 "}";
 "";
 "impl Clone for Iter {";
 "    #[inline]";
 "    fn clone(&self) -> Iter {";
 "        Iter { bits: self.bits }";
 "    }";
 "}";
 "";
 "impl Iterator for Iter {";
 "    type Item = bool;";
 "";
 "    #[inline]";
 "    fn next(&mut self) -> Option<Self::Item> {";
 "        if self.bits & TRUE_BIT != 0 {";
 "            self.bits &= !TRUE_BIT;";
 "            return Some(true);";
 "        }";
 "";
 "        if self.bits & FALSE_BIT != 0 {";
 "            self.bits &= !FALSE_BIT;";
 "            return Some(false);";
 "        }";
 "";
 "        None";
 "    }";
 "";
 "    #[inline]";
 "    fn size_hint(&self) -> (usize, Option<usize>) {";
 "        let len = self.bits.count_ones() as usize;";
 "        (len, Some(len))";
 "    }";
 "}";
 "";
 "impl DoubleEndedIterator for Iter {";
 "    #[inline]";
 "    fn next_back(&mut self) -> Option<Self::Item> {";
 "        if self.bits & FALSE_BIT != 0 {";
 "            self.bits &= !FALSE_BIT;";
 "            return Some(false);";
 "        }";
 "";
 "        if self.bits & TRUE_BIT != 0 {";
 "            self.bits &= !TRUE_BIT;";
 "            return Some(true);";
 "        }";
 "";
 "        None";
 "    }";
 "}";
 "";
 "impl ExactSizeIterator for Iter {";
 "    #[inline]";
 "    fn len(&self) -> usize {";
 "        self.bits.count_ones() as usize";
 "    }";
 "}";
 "";
 "impl SetStorage<bool> for BooleanSetStorage {";
 "    type Iter<'this> = Iter;";
 "    type IntoIter = Iter;";
 "";
 "    #[inline]";
 "    fn empty() -> Self {";
 "        Self { bits: 0 }";
 "    }";
 "";
 "    #[inline]";
 "    fn len(&self) -> usize {";
 "        usize::from(self.bits & TRUE_BIT != 0)";
 "            .saturating_add(usize::from(self.bits & FALSE_BIT != 0))";
 "    }";
 "";
 "    #[inline]";
 "    fn is_empty(&self) -> bool {";
 "        self.bits == 0";
 "    }";
 "";
 "    #[inline]";
 "    fn insert(&mut self, value: bool) -> bool {";
 "        let update = self.bits | to_bits(value);";
 "        test(mem::replace(&mut self.bits, update), value)";
 "    }";
 "";
 "    #[inline]";
 "    fn contains(&self, value: bool) -> bool {";
 "        test(self.bits, value)";
 "    }";
 "";
 "    #[inline]";
 "    fn remove(&mut self, value: bool) -> bool {";
 "        let value = to_bits(value);";
 "        let update = self.bits & !value;";
 "        mem::replace(&mut self.bits, update) != 0";
 "    }";
 "";
 "    #[inline]";
 "    fn retain<F>(&mut self, mut f: F)";
 "    where";
 "        F: FnMut(bool) -> bool,";
 "    {";
 "        if test(self.bits, true) && !f(true) {";
 "            self.bits &= !TRUE_BIT;";
 "        }";
 "";
 "        if test(self.bits, false) && !f(false) {";
 "            self.bits &= !FALSE_BIT;";
 "        }";
 "    }";
 "";
 "    #[inline]";
 "    fn clear(&mut self) {";
 "        self.bits = 0;";
 "    }";
 "";
 "    #[inline]";
 "    fn iter(&self) -> Self::Iter<'_> {";
 "        Iter { bits: self.bits }";
 "    }";
 "";
 "    #[inline]";
 "    fn into_iter(self) -> Self::IntoIter {";
 "        Iter { bits: self.bits }";
 "    }";
 "}";
 "";
 "#[inline]";
 "const fn test(bits: u8, value: bool) -> bool {";
 "    bits & to_bits(value) != 0";
 "}";
 "";
 "#[inline]";
 "const fn to_bits(value: bool) -> u8 {";
 "    if value {";
 "        TRUE_BIT";
 "    } else {";
 "        FALSE_BIT";
 "    }";
 "}"].

(** src/set/storage/singleton.rs:1-71. *)
Definition text_set_singleton : list string :=
["use core::mem;";
 "";
 "use crate::set::SetStorage;";
 "";
 "/// [`SetStorage`]  types that can only inhabit a single value (like `()`).";
 "#[repr(transparent)]";
 "#[derive(Clone, Copy, PartialEq, Eq, PartialOrd, Ord, Hash)]";
 "pub struct SingletonSetStorage {";
 "    is_set: bool,";
 "}";
 "";
 "impl<T> SetStorage<T> for SingletonSetStorage";
 "where";
 "    T: Default + Clone,";
 "{";
 "    type Iter<'this> = core::option::IntoIter<T>;";
 "    type IntoIter = core::option::IntoIter<T>;";
 "";
 "    #[inline]";
 "    fn empty() -> Self {";
 "        Self { is_set: false }";
 "    }";
 "";
 "    #[inline]";
 "    fn len(&self) -> usize {";
 "        usize::from(self.is_set)";
 "    }";
 "";
 "    #[inline]";
 "    fn is_empty(&self) -> bool {";
 "        !self.is_set";
 "    }";
 "";
 "    #[inline]";
 "    fn insert(&mut self, _: T) -> bool {";
 "        !mem::replace(&mut self.is_set, true)";
 "    }";
 "";
 "    #[inline]";
 "    fn contains(&self, _: T) -> bool {";
 "        self.is_set";
 "    }";
 "";
 "    #[inline]";
 "    fn remove(&mut self, _: T) -> bool {";
 "        mem::replace(&mut self.is_set, false)";
 "    }";
 "";
 "    #[inline]";
 "    fn retain<F>(&mut self, mut func: F)";
 "    where";
 "        F: FnMut(T) -> bool,";
 "    {";
 "        self.is_set = func(T::default());";
 "    }";
 "";
 "    #[inline]";
 "    fn clear(&mut self) {";
 "        self.is_set = false;";
 "    }";
 "";
 "    #[inline]";
 "    fn iter(&self) -> Self::Iter<'_> {";
 "        self.is_set.then_some(T::default()).into_iter()";
 "    }";
 "";
 "    #[inline]";
 "    fn into_iter(self) -> Self::IntoIter {";
 "        self.is_set.then_some(T::default()).into_iter()";
 "    }";
 "}"].

(** src/set/storage/option.rs:1-183. *)
Definition text_set_option : list string :=
["use core::iter;";
 "use core::mem;";
 "use core::option;";
 "";
 "use crate::set::SetStorage;";
 "use crate::Key;";
 "";
 "type Iter<'a, T> = iter::Chain<";
 "    iter::Map<<<T as Key>::SetStorage as SetStorage<T>>::Iter<'a>, fn(T) -> Option<T>>,";
 "    option::IntoIter<Option<T>>,";
 ">;";
 "type IntoIter<T> = iter::Chain<";
 "    iter::Map<<<T as Key>::SetStorage as SetStorage<T>>::IntoIter, fn(T) -> Option<T>>,";
 "    option::IntoIter<Option<T>>,";
 ">;";
 "";
 "/// [`SetStorage`] for [`Option`] types.";
 "///";
 "/// # Examples";
 "///";
 "/// ```";
 "/// use fixed_map::{Key, Map};";
 "///";
 "/// #[derive(Debug, Clone, Copy, PartialEq, Key)]";
 "/// enum Part {";
 "///     A,";
 "///     B,";
 "/// }";
 "///";
 "/// #[derive(Debug, Clone, Copy, PartialEq, Key)]";
 "/// enum MyKey {";
 "///     First(Option<Part>),";
 "///     Second,";
 "/// }";
 "///";
 "/// let mut a = Map::new();";
 "/// a.insert(MyKey::First(None), 1);";
 "/// a.insert(MyKey::First(Some(Part::A)), 2);";
 "///";
 "/// assert_eq!(a.get(MyKey::First(Some(Part::A))), Some(&2));";
 "/// assert_eq!(a.get(MyKey::First(Some(Part::B))), None);";
 "/// assert_eq!(a.get(MyKey::First(None)), Some(&1));";
 "/// assert_eq!(a.get(MyKey::Second), None);";
 "///";
 "/// assert!(a.iter().eq([(MyKey::First(Some(Part::A)), &2), (MyKey::First(None), &1)]));";
 "/// assert!(a.values().copied().eq([2, 1]));";
 "/// assert!(a.keys().eq([MyKey::First(Some(Part::A)), MyKey::First(None)]));";
 "/// ```";
 "pub struct OptionSetStorage<T>";
 "where";
 "    T: Key,";
 "{";
 "    some: T::SetStorage,";
 "    none: bool,";
 "}";
 "";
 "impl<T> Clone for OptionSetStorage<T>";
 "where";
 "    T: Key,";
 "    T::SetStorage: Clone,";
 "{";
 "    #[inline]";
 "    fn clone(&self) -> Self {";
 "        Self {";
 "            some: self.some.clone(),";
 "            none: self.none,";
 "        }";
 "    }";
 "}";
 "";
 "impl<T> Copy for OptionSetStorage<T>";
 "where";
 "    T: Key,";
 "    T::SetStorage: Copy,";
 "{";
 "}";
 "";
 "impl<T> PartialEq for OptionSetStorage<T>";
 "where";
 "    T: Key,";
 "    T::SetStorage: PartialEq,";
 "{";
 "    #[inline]";
 "    fn eq(&self, other: &Self) -> bool {";
 "        self.none == other.none && self.some == other.some";
 "    }";
 "}";
 "";
 "impl<T> Eq for OptionSetStorage<T>";
 "where";
 "    T: Key,";
 "    T::SetStorage: Eq,";
 "{";
 "}";
 "";
 "impl<T> SetStorage<Option<T>> for OptionSetStorage<T>";
 "where";
 "    T: Key,";
 "{";
 "    type Iter<'this>";
 "        = Iter<'this, T>";
 "    where";
 "        T: 'this;";
 "    type IntoIter = IntoIter<T>;";
 "";
 "    #[inline]";
 "    fn empty() -> Self {";
 "        Self {";
 "            some: T::SetStorage::empty(),";
 "            none: false,";
 "        }";
 "    }";
 "";
 "    #[inline]";
 "    fn len(&self) -> usize {";
 "        self.some.len() + usize::from(self.none)";
 "    }";
 "";
 "    #[inline]";
 "    fn is_empty(&self) -> bool {";
 "        self.some.is_empty() && self.none";
 "    }";
 "";
 "    #[inline]";
 "    fn insert(&mut self, value: Option<T>) -> bool {";
 "        match value {";
 "            Some(value) => self.some.insert(value),";
 "            None => mem::replace(&mut self.none, true),";
 "        }";
 "    }";
 "";
 "    #[inline]";
 "    fn contains(&self, value: Option<T>) -> bool {";
 "        match value {";
 "            Some(key) => self.some.contains(key),";
 "            None => self.none,";
 "        }";
 "    }";
 "";
 "    #[inline]";
 "    fn remove(&mut self, key: Option<T>) -> bool {";
 "        match key {";
 "            Some(key) => self.some.remove(key),";
 "            None => mem::replace(&mut self.none, false),";
 "        }";
 "    }";
 "";
 "    #[inline]";
 "    fn retain<F>(&mut self, mut func: F)";
 "    where";
 "        F: FnMut(Option<T>) -> bool,";
 "    {";
 "        self.some.retain(|value| func(Some(value)));";
 "";
 "        if self.none {";
 "            self.none = func(None);";
 "        }";
 "    }";
 "";
 "    #[inline]";
 "    fn clear(&mut self) {";
 "        self.some.clear();";
 "        self.none = false;";
 "    }";
 "";
 "    #[inline]";
 "    fn iter(&self) -> Self::Iter<'_> {";
 "        let map: fn(_) -> _ = Some;";
 "        self.some";
 "            .iter()";
 "            .map(map)";
 "            .chain(self.none.then_some(None::<T>))";
 "    }";
 "";
 "    #[inline]";
 "    fn into_iter(self) -> Self::IntoIter {";
 "        let map: fn(_) -> _ = Some;";
 "        self.some";
 "            .into_iter()";
 "            .map(map)";
 "            .chain(self.none.then_some(None::<T>))";
 "    }";
 "}"].

(** src/set/storage/hashbrown.rs:1-121. *)
Definition text_set_hashbrown : list string :=
["use core::hash::Hash;";
 "use core::iter;";
 "";
 "use crate::set::SetStorage;";
 "";
 "/// [`SetStorage`] for dynamically stored types, using [`hashbrown::HashSet`].";
 "///";
 "/// This allows for dynamic types such as `&'static str` or `u32` to be used as";
 "/// a [`Key`][crate::Key].";
 "///";
 "/// # Examples";
 "///";
 "/// ```";
 "/// use fixed_map::{Key, Set};";
 "///";
 "/// #[derive(Clone, Copy, Key)]";
 "/// enum MyKey {";
 "///     First(u32),";
 "///     Second,";
 "/// }";
 "///";
 "/// let mut map = Set::new();";
 "/// map.insert(MyKey::First(1));";
 "/// assert_eq!(map.contains(MyKey::First(1)), true);";
 "/// assert_eq!(map.contains(MyKey::First(2)), false);";
 "/// assert_eq!(map.contains(MyKey::Second), false);";
 "/// ```";
 "#[repr(transparent)]";
 "pub struct HashbrownSetStorage<T> {";
 "    inner: ::hashbrown::HashSet<T>,";
 "}";
 "";
 "impl<T> Clone for HashbrownSetStorage<T>";
 "where";
 "    T: Clone,";
 "{";
 "    #[inline]";
 "    fn clone(&self) -> Self {";
 "        HashbrownSetStorage {";
 "            inner: self.inner.clone(),";
 "        }";
 "    }";
 "}";
 "";
 "impl<T> PartialEq for HashbrownSetStorage<T>";
 "where";
 "    T: Eq + Hash,";
 "{";
 "    #[inline]";
 "    fn eq(&self, other: &Self) -> bool {";
 "        self.inner.eq(&other.inner)";
 "    }";
 "}";
 "";
 "impl<T> Eq for HashbrownSetStorage<T> where T: Eq + Hash {}";
 "";
 "impl<T> SetStorage<T> for HashbrownSetStorage<T>";
 "where";
 "    T: Copy + Eq + Hash,";
 "{";
 "    type Iter<'this>";
 "        = iter::Copied<::hashbrown::hash_set::Iter<'this, T>>";
 "    where";
 "        T: 'this;";
 "    type IntoIter = ::hashbrown::hash_set::IntoIter<T>;";
 "";
 "    #[inline]";
 "    fn empty() -> Self {";
 "        Self {";
 "            inner: ::hashbrown::HashSet::new(),";
 "        }";
 "    }";
 "";
 "    #[inline]";
 "    fn len(&self) -> usize {";
 "        self.inner.len()";
 "    }";
 "";
 "    #[inline]";
 "    fn is_empty(&self) -> bool {";
 "        self.inner.is_empty()";
 "    }";
 "";
 "    #[inline]";
 "    fn insert(&mut self, value: T) -> bool {";
 "        self.inner.insert(value)";
 "    }";
 "";
 "    #[inline]";
 "    fn contains(&self, value: T) -> bool {";
 "        self.inner.contains(&value)";
 "    }";
 "";
 "    #[inline]";
 "    fn remove(&mut self, value: T) -> bool {";
 "        self.inner.remove(&value)";
 "    }";
 "";
 "    #[inline]";
 "    fn retain<F>(&mut self, mut func: F)";
 "    where";
 "        F: FnMut(T) -> bool,";
 "    {";
 "        self.inner.retain(|&value| func(value));";
 "    }";
 "";
 "    #[inline]";
 "    fn clear(&mut self) {";
 "        self.inner.clear();";
 "    }";
 "";
 "    #[inline]";
 "    fn iter(&self) -> Self::Iter<'_> {";
 "        self.inner.iter().copied()";
 "    }";
 "";
 "    #[inline]";
 "    fn into_iter(self) -> Self::IntoIter {";
 "        self.inner.into_iter()";
 "    }";
 "}"].

(** src/option_bucket.rs:1-421. *)
Definition text_option_bucket : list string :=
["//! # PRIVATE API";
 "//!";
 "//! This API is private, for use only in the `derive(Key)` macro.";
 "//! Usage for other purposes is not supported, and this API will";
 "//! not abide by Semver stability guarantees.";
 "//!";
 "//! If you find that this API would be useful outside its";
 "//! application in `fixed-map`, let us know.";
 "//! We can factor it into its own crate.";
 "//!";
 "//! # Option Buckets";
 "//!";
 "//! Utility for working with [`Option`s][Option]";
 "//! in cases where we want mutable access to the value within";
 "//! and the [`Option`] itself (but not at the same time).";
 "//!";
 "//! Provides three types:";
 "//! - [`SomeBucket`] allows accessing the value";
 "//!   inside an [`Option`] known to be [`Some`] without `unwrap`";
 "//! - [`NoneBucket`] allows optimally inserting a value";
 "//!   into an [`Option`] known to be [`None`]";
 "//! - [`OptionBucket`], an enum over the previous two,";
 "//!   easily constructed from any `&mut Option`";
 "//!";
 "//! # Examples";
 "//!";
 "//! Safely implement [`Option::get_or_insert`]";
 "//! ```";
 "//! use fixed_map::option_bucket::OptionBucket;";
 "//!";
 "//! fn get_or_insert<T>(this: &mut Option<T>, value: T) -> &mut T {";
 "//!     match OptionBucket::new(this) {";
 "//!          OptionBucket::Some(some) => some.into_mut(),";
 "//!          OptionBucket::None(none) => none.insert(value),";
 "//!     }";
 "//! }";
 "//!";
 "//! let mut x = None;";
 "//! assert_eq!(get_or_insert(&mut x, 12), &12);";
 "//! ```";
 "//!";
 "//! Safely implement entry API for [`Option`]";
 "//! ```";
 "//! use fixed_map::option_bucket::*;";
 "//!";
 "//! struct OccupiedEntry<'a, T> {";
 "//!     inner: SomeBucket<'a, T>";
 "//! }";
 "//!";
 "//! struct VacantEntry<'a, T> {";
 "//!     inner: NoneBucket<'a, T>,";
 "//! }";
 "//!";
 "//! enum Entry<'a, T> {";
 "//!     Vacant(VacantEntry<'a, T>),";
 "//!     Occupied(OccupiedEntry<'a, T>),";
 "//! }";
 "//!";
 "//! impl<'a, T> VacantEntry<'a, T> {";
 "//!     fn insert(self, value: T) -> &'a mut T {";
 "//!         self.inner.insert(value)";
 "//!     }";
 "//! }";
 "//!";
 "//! impl<'a, T> OccupiedEntry<'a, T> {";
 "//!     fn get(&self) -> &T {";
 "//!         self.inner.as_ref()";
 "//!     }";
 "//!     fn get_mut(&mut self) -> &mut T {";
 "//!         self.inner.as_mut()";
 "//!     }";
 "//!     fn into_mut(self) -> &'a mut T {";
 "//!         self.inner.into_mut()";
 "//!     }";
 "//!     fn insert(&mut self, value: T) -> T {";
 "//!         self.inner.replace(value)";
 "//!     }";
 "//!     fn remove(self) -> T {";
 "//!         self.inner.take()";
 "//!     }";
 "//! }";
 "//!";
 "//! fn option_entry<T>(this: &mut Option<T>) -> Entry<'_, T> {";
 "//!     match OptionBucket::new(this) {";
 "//!         OptionBucket::Some(inner) => Entry::Occupied(OccupiedEntry { inner }),";
 "//!         OptionBucket::None(inner) => Entry::Vacant(VacantEntry { inner }),";
 "//!     }";
 "//! }";
 "//! ```";
 "";
 "#![allow(unsafe_code)]";
 "// `clippy::pedantic` exceptions";
 "#![allow(clippy::should_implement_trait, clippy::must_use_candidate)]";
 "";
 "use core::mem;";
 "";
 "use crate::map::{OccupiedEntry, VacantEntry};";
 "";
 "#[cfg(test)]";
 "mod tests;";
 "";
 "/// Abstraction for an [`&mut Option`][Option] that's known to be [`Some`].";
 "///";
 "/// # Size";
 "///";
 "/// `SomeOption` is the size of two pointers, making it";
 "/// twice the size of `&mut Option`. One points to the";
 "/// value inside, and the other points to the `Option` itself.";
 "pub struct SomeBucket<'a, T> {";
 "    outer: &'a mut Option<T>,";
 "}";
 "";
 "impl<'a, T> SomeBucket<'a, T> {";
 "    /// Creates a new [`SomeBucket`], without checking that";
 "    /// the input [`Option`] is `Some`.";
 "    ///";
 "    /// It's recommended to use [`SomeBucket::new`] or";
 "    /// [`OptionBucket::new`] instead.";
 "    ///";
 "    /// # Safety";
 "    ///";
 "    /// Caller must guarantee that `opt` is NOT `None`.";
 "    #[inline]";
 "    pub unsafe fn new_unchecked(opt: &'a mut Option<T>) -> Self {";
 "        debug_assert!(";
 "            opt.is_some(),";
 "            ""Undefined Behavior: `None` value passed to `SomeBucket::new_unchecked`.""";
 "        );";
 "";
 "        SomeBucket { outer: opt }";
 "    }";
 "";
 "    /// Creates a new [`SomeBucket`]. Returns `Some(SomeBucket<T>)`";
 "    /// if `opt` is [`Some`], otherwise returns `None`.";
 "    ///";
 "    /// For an unchecked version, see [`SomeBucket::new_unchecked`].";
 "    #[inline]";
 "    pub fn new(opt: &'a mut Option<T>) -> Option<Self> {";
 "        if opt.is_some() {";
 "            // SAFETY: If conditional ensures that `opt` is `Some`";
 "            unsafe { Some(Self::new_unchecked(opt)) }";
 "        } else {";
 "            None";
 "        }";
 "    }";
 "";
 "    /// Converts from `&Option<T>::Some` to `&T`.";
 "    ///";
 "    /// # Examples";
 "    ///";
 "    /// ```";
 "    /// # use fixed_map::option_bucket::SomeBucket;";
 "    ///";
 "    /// let mut text: Option<String> = Some(""Hello, world!"".to_string());";
 "    /// let some = SomeBucket::new(&mut text).unwrap();";
 "    ///";
 "    /// let hello: &str = &some.as_ref()[..5];";
 "    /// let length: usize = some.as_ref().len();";
 "    /// assert_eq!(hello, ""Hello"");";
 "    /// assert_eq!(length, 13);";
 "    /// ```";
 "    #[inline]";
 "    pub fn as_ref(&self) -> &T {";
 "        // SAFETY: `outer` is guaranteed to be `Some`";
 "        // by the invariants of `new_unchecked`";
 "        unsafe { self.outer.as_ref().unwrap_unchecked() }";
 "    }";
 "";
 "    /// Converts from `&mut Option<T>::Some` to `&mut T`,";
 "    /// with the lifetime of this `SomeBucket`.";
 "    ///";
 "    /// # Examples";
 "    ///";
 "    /// ```";
 "    /// # use fixed_map::option_bucket::SomeBucket;";
 "    ///";
 "    /// let mut text: Option<String> = Some(""Hello, world!"".to_string());";
 "    /// let mut some = SomeBucket::new(&mut text).unwrap();";
 "    ///";
 "    /// some.as_mut().push_str("" Happy to be here."");";
 "    /// assert_eq!(some.as_ref(), ""Hello, world! Happy to be here."");";
 "    /// ```";
 "    #[inline]";
 "    pub fn as_mut(&mut self) -> &mut T {";
 "        // SAFETY: `outer` is guaranteed to be `Some`";
 "        // by the invariants of `new_unchecked`";
 "        unsafe { self.outer.as_mut().unwrap_unchecked() }";
 "    }";
 "";
 "    /// Converts from `&mut Option<T>::Some` to `&mut T`,";
 "    /// with the lifetime of the original reference,";
 "    /// consuming this `SomeBucket`.";
 "    ///";
 "    /// # Examples";
 "    ///";
 "    /// ```";
 "    /// # use fixed_map::option_bucket::SomeBucket;";
 "    ///";
 "    /// let mut text: Option<String> = Some(""Hello, world!"".to_string());";
 "    /// let some = SomeBucket::new(&mut text).unwrap();";
 "    ///";
 "    /// some.into_mut().push_str("" Happy to be here."");";
 "    /// assert_eq!(&text.unwrap(), ""Hello, world! Happy to be here."");";
 "    /// ```";
 "    ///";
 "    /// ```compile_fail";
 "    /// # use fixed_map::option_bucket::SomeBucket;";
 "    ///";
 "    /// let mut text: Option<String> = Some(""Hello, world!"".to_string());";
 "    /// let some = SomeBucket::new(&mut text).unwrap();";
 "    ///";
 "    /// some.into_mut().push_str("" Happy to be here."");";
 "    /// // can not longer use `some`";
 "    /// some.as_ref();";
 "    /// ```";
 "    #[inline]";
 "    pub fn into_mut(self) -> &'a mut T {";
 "        // SAFETY: `outer` is guaranteed to be `Some`";
 "        // by the invariants of `new_unchecked`";
 "        unsafe { self.outer.as_mut().unwrap_unchecked() }";
 "    }";
 "";
 "    /// Sets the value in the `Option<T>::Some`, and returns";
 "    /// the old value.";
 "    ///";
 "    /// # Examples";
 "    ///";
 "    /// ```";
 "    /// # use fixed_map::option_bucket::SomeBucket;";
 "    ///";
 "    /// let mut x = Some(2);";
 "    /// let mut some = SomeBucket::new(&mut x).unwrap();";
 "    ///";
 "    /// let old = some.replace(5);";
 "    /// assert_eq!(old, 2);";
 "    /// assert_eq!(x, Some(5));";
 "    /// ```";
 "    #[inline]";
 "    pub fn replace(&mut self, value: T) -> T {";
 "        mem::replace(self.as_mut(), value)";
 "    }";
 "";
 "    /// Takes the value out of the option, leaving a `None` in its place,";
 "    /// and consuming this `SomeBucket`.";
 "    ///";
 "    /// ```";
 "    /// # use fixed_map::option_bucket::SomeBucket;";
 "    ///";
 "    /// let mut x = Some(vec![1, 2]);";
 "    /// let some = SomeBucket::new(&mut x).unwrap();";
 "    ///";
 "    /// let y = some.take();";
 "    /// assert_eq!(x, None);";
 "    /// assert_eq!(y, vec![1, 2]);";
 "    /// ```";
 "    #[inline]";
 "    pub fn take(self) -> T {";
 "        // SAFETY: `outer` is guaranteed to be `Some`";
 "        // by the invariants of `new_unchecked`";
 "        unsafe { self.outer.take().unwrap_unchecked() }";
 "    }";
 "}";
 "";
 "impl<'a, K, V> OccupiedEntry<'a, K, V> for SomeBucket<'a, V>";
 "where";
 "    K: Default,";
 "{";
 "    #[inline]";
 "    fn key(&self) -> K {";
 "        K::default()";
 "    }";
 "";
 "    #[inline]";
 "    fn get(&self) -> &V {";
 "        SomeBucket::as_ref(self)";
 "    }";
 "";
 "    #[inline]";
 "    fn get_mut(&mut self) -> &mut V {";
 "        SomeBucket::as_mut(self)";
 "    }";
 "";
 "    #[inline]";
 "    fn into_mut(self) -> &'a mut V {";
 "        SomeBucket::into_mut(self)";
 "    }";
 "";
 "    #[inline]";
 "    fn insert(&mut self, value: V) -> V {";
 "        SomeBucket::replace(self, value)";
 "    }";
 "";
 "    #[inline]";
 "    fn remove(self) -> V {";
 "        SomeBucket::take(self)";
 "    }";
 "}";
 "";
 "/// Abstraction for an [`&mut Option`][Option] that's known to be `None`.";
 "///";
 "/// # Size";
 "///";
 "/// `NoneBucket` is the same size as `&mut Option`";
 "pub struct NoneBucket<'a, T> {";
 "    outer: &'a mut Option<T>,";
 "}";
 "";
 "impl<'a, T> NoneBucket<'a, T> {";
 "    /// Creates a new [`NoneBucket`], without checking that";
 "    /// the input [`Option`] is `None`.";
 "    ///";
 "    /// It's recommended to use [`NoneBucket::new`] or";
 "    /// [`OptionBucket::new`] instead.";
 "    ///";
 "    /// # Safety";
 "    ///";
 "    /// Caller must guarantee that `opt` is NOT [`Some`].";
 "    #[inline]";
 "    pub unsafe fn new_unchecked(opt: &'a mut Option<T>) -> Self {";
 "        debug_assert!(";
 "            opt.is_none(),";
 "            ""Undefined Behavior: `Some` value passed to `NoneBucket::new_unchecked`.""";
 "        );";
 "";
 "        NoneBucket { outer: opt }";
 "    }";
 "";
 "    /// Creates a new [`NoneBucket`]. Returns `Some(NoneBucket<T>)`";
 "    /// if `opt` is [`None`], otherwise returns `None`.";
 "    ///";
 "    /// For an unchecked version, see [`NoneBucket::new_unchecked`].";
 "    #[inline]";
 "    pub fn new(opt: &'a mut Option<T>) -> Option<Self> {";
 "        if opt.is_none() {";
 "            // SAFETY: if conditional ensures that `opt` is `None`";
 "            unsafe { Some(Self::new_unchecked(opt)) }";
 "        } else {";
 "            None";
 "        }";
 "    }";
 "";
 "    /// Inserts value into the option, then returns a mutable reference to it.";
 "    ///";
 "    /// This is practically identical to [`Option::insert`], but avoids";
 "    /// operations handling [`drop`]ping the old value";
 "    /// (since we know there was no old value).";
 "    /// ```";
 "    /// # use fixed_map::option_bucket::NoneBucket;";
 "    ///";
 "    /// let mut opt = None;";
 "    /// let mut none = NoneBucket::new(&mut opt).unwrap();";
 "    /// let val = none.insert(1);";
 "    /// assert_eq!(*val, 1);";
 "    /// *val = 3;";
 "    /// assert_eq!(opt.unwrap(), 3);";
 "    /// ```";
 "    #[inline]";
 "    pub fn insert(self, value: T) -> &'a mut T {";
 "        // SAFETY: `outer` is `None`, so there is no old value to `drop`";
 "        unsafe {";
 "            let outer: *mut Option<T> = self.outer;";
 "            outer.write(Some(value));";
 "        }";
 "";
 "        // SAFETY: the code above just filled the option";
 "        unsafe { self.outer.as_mut().unwrap_unchecked() }";
 "    }";
 "}";
 "";
 "impl<'a, K, V> VacantEntry<'a, K, V> for NoneBucket<'a, V>";
 "where";
 "    K: Default,";
 "{";
 "    #[inline]";
 "    fn key(&self) -> K {";
 "        K::default()";
 "    }";
 "";
 "    #[inline]";
 "    fn insert(self, value: V) -> &'a mut V {";
 "        NoneBucket::insert(self, value)";
 "    }";
 "}";
 "";
 "/// Recommended entry for getting a [`SomeBucket`] or";
 "/// [`NoneBucket`]. Infallibly convertible from any";
 "/// [`&mut Option`][Option].";
 "pub enum OptionBucket<'a, T> {";
 "    /// An option known to be `Some`.";
 "    Some(SomeBucket<'a, T>),";
 "    /// An option known to be `None`.";
 "    None(NoneBucket<'a, T>),";
 "}";
 "";
 "impl<'a, T> OptionBucket<'a, T> {";
 "    /// Create an `OptionBucket` from an `&mut Option`.";
 "    ///";
 "    /// # Examples";
 "    ///";
 "    /// ```";
 "    /// use fixed_map::option_bucket::OptionBucket;";
 "    ///";
 "    /// let mut none: Option<i32> = None;";
 "    /// let none_bucket = OptionBucket::new(&mut none);";
 "    /// assert!(matches!(none_bucket, OptionBucket::None(_)));";
 "    ///";
 "    /// let mut some: Option<i32> = Some(12);";
 "    /// let some_bucket = OptionBucket::new(&mut some);";
 "    /// assert!(matches!(some_bucket, OptionBucket::Some(_)));";
 "    /// ```";
 "    #[inline]";
 "    pub fn new(opt: &'a mut Option<T>) -> Self {";
 "        if opt.is_some() {";
 "            // SAFETY: if conditional ensures that `opt` is `Some`";
 "            unsafe { OptionBucket::Some(SomeBucket::new_unchecked(opt)) }";
 "        } else {";
 "            // SAFETY: if conditional ensures that `opt` is `None`";
 "            unsafe { OptionBucket::None(NoneBucket::new_unchecked(opt)) }";
 "        }";
 "    }";
 "}"].

(** src/map/entry.rs:1-318. *)
Definition text_map_entry : list string :=
["use crate::map::{MapStorage, OccupiedEntry, VacantEntry};";
 "";
 "/// A view into a single entry in a map, which may either be vacant or occupied.";
 "///";
 "/// This enum is constructed from the [`entry`][crate::Map::entry] method on [`Map`][crate::Map].";
 "pub enum Entry<'a, S: 'a, K, V>";
 "where";
 "    S: MapStorage<K, V>,";
 "{";
 "    /// An occupied entry.";
 "    Occupied(S::Occupied<'a>),";
 "    /// A vacant entry.";
 "    Vacant(S::Vacant<'a>),";
 "}";
 "";
 "impl<'a, S: 'a, K, V> Entry<'a, S, K, V>";
 "where";
 "    S: MapStorage<K, V>,";
 "{";
 "    /// Ensures a value is in the entry by inserting the default if empty,";
 "    /// and returns a mutable reference to the value in the entry.";
 "    ///";
 "    /// # Examples";
 "    ///";
 "    /// ```";
 "    /// use fixed_map::{Key, Map};";
 "    ///";
 "    /// #[derive(Clone, Copy, Key)]";
 "    /// enum MyKey {";
 "    ///     First,";
 "    ///     Second,";
 "    /// }";
 "    ///";
 "    /// let mut map: Map<MyKey, i32> = Map::new();";
 "    ///";
 "    /// map.entry(MyKey::First).or_insert(3);";
 "    /// assert_eq!(map.get(MyKey::First), Some(&3));";
 "    ///";
 "    /// *map.entry(MyKey::First).or_insert(10) *= 2;";
 "    /// assert_eq!(map.get(MyKey::First), Some(&6));";
 "    /// ```";
 "    ///";
 "    /// Using a composite key:";
 "    ///";
 "    /// ```";
 "    /// use fixed_map::{Key, Map};";
 "    ///";
 "    /// #[derive(Clone, Copy, Key)]";
 "    /// enum MyKey {";
 "    ///     First(bool),";
 "    ///     Second,";
 "    /// }";
 "    ///";
 "    /// let mut map: Map<MyKey, i32> = Map::new();";
 "    ///";
 "    /// map.entry(MyKey::First(false)).or_insert(3);";
 "    /// assert_eq!(map.get(MyKey::First(false)), Some(&3));";
 "    ///";
 "    /// *map.entry(MyKey::First(false)).or_insert(10) *= 2;";
 "    /// assert_eq!(map.get(MyKey::First(false)), Some(&6));";
 "    /// ```";
 "    #[inline]";
 "    pub fn or_insert(self, default: V) -> &'a mut V {";
 "        match self {";
 "            Entry::Occupied(entry) => entry.into_mut(),";
 "            Entry::Vacant(entry) => entry.insert(default),";
 "        }";
 "    }";
 "";
 "    /// Ensures a value is in the entry by inserting the result of the default function if empty,";
 "    /// and returns a mutable reference to the value in the entry.";
 "    ///";
 "    /// # Examples";
 "    ///";
 "    /// ```";
 "    /// use fixed_map::{Key, Map};";
 "    ///";
 "    /// #[derive(Clone, Copy, Key)]";
 "    /// enum MyKey {";
 "    ///     First,";
 "    ///     Second,";
 "    /// }";
 "    ///";
 "    /// let mut map: Map<MyKey, String> = Map::new();";
 "    ///";
 "    /// map.entry(MyKey::First).or_insert_with(|| format!(""{}"", 3));";
 "    /// assert_eq!(map.get(MyKey::First), Some(&""3"".to_string()));";
 "    /// ```";
 "    ///";
 "    /// Using a composite key:";
 "    ///";
 "    /// ```";
 "    /// use fixed_map::{Key, Map};";
 "    ///";
 "    /// #[derive(Clone, Copy, Key)]";
 "    /// enum MyKey {";
 "    ///     First(bool),";
 "    ///     Second,";
 "    /// }";
 "    ///";
 "    /// let mut map: Map<MyKey, String> = Map::new();";
 "    ///";
 "    /// map.entry(MyKey::First(false)).or_insert_with(|| format!(""{}"", 3));";
 "    /// assert_eq!(map.get(MyKey::First(false)), Some(&""3"".to_string()));";
 "    /// ```";
 "    #[inline]";
 "    pub fn or_insert_with<F>(self, default: F) -> &'a mut V";
 "    where";
 "        F: FnOnce() -> V,";
 "    {";
 "        match self {";
 "            Entry::Occupied(entry) => entry.into_mut(),";
 "            Entry::Vacant(entry) => entry.insert(default()),";
 "        }";
 "    }";
 "";
 "    /// Ensures a value is in the entry by inserting, if empty, the result of the default function.";
 "    /// This method allows for generating key-derived values for insertion by providing the default";
 "    /// function a copy of the key that was passed to the `.entry(key)` method call.";
 "    ///";
 "    /// # Examples";
 "    ///";
 "    /// ```";
 "    /// use fixed_map::{Key, Map};";
 "    ///";
 "    /// #[derive(Clone, Copy, Key, Debug)]";
 "    /// enum MyKey {";
 "    ///     First,";
 "    ///     Second,";
 "    /// }";
 "    ///";
 "    /// let mut map: Map<MyKey, String> = Map::new();";
 "    ///";
 "    /// map.entry(MyKey::First).or_insert_with_key(|k| format!(""{:?} = {}"", k, 3));";
 "    /// assert_eq!(map.get(MyKey::First), Some(&""First = 3"".to_string()));";
 "    /// ```";
 "    ///";
 "    /// Using a composite key:";
 "    ///";
 "    /// ```";
 "    /// use fixed_map::{Key, Map};";
 "    ///";
 "    /// #[derive(Clone, Copy, Key, Debug)]";
 "    /// enum MyKey {";
 "    ///     First(bool),";
 "    ///     Second,";
 "    /// }";
 "    ///";
 "    /// let mut map: Map<MyKey, String> = Map::new();";
 "    ///";
 "    /// map.entry(MyKey::First(false)).or_insert_with_key(|k| format!(""{:?} = {}"", k, 3));";
 "    /// assert_eq!(map.get(MyKey::First(false)), Some(&""First(false) = 3"".to_string()));";
 "    /// ```";
 "    #[inline]";
 "    pub fn or_insert_with_key<F>(self, default: F) -> &'a mut V";
 "    where";
 "        F: FnOnce(K) -> V,";
 "    {";
 "        match self {";
 "            Entry::Occupied(entry) => entry.into_mut(),";
 "            Entry::Vacant(entry) => {";
 "                let value = default(entry.key());";
 "                entry.insert(value)";
 "            }";
 "        }";
 "    }";
 "";
 "    /// Returns a copy of this entry's key.";
 "    ///";
 "    /// # Examples";
 "    ///";
 "    /// ```";
 "    /// use fixed_map::{Key, Map};";
 "    ///";
 "    /// #[derive(Clone, Copy, Key, Debug, PartialEq)]";
 "    /// enum MyKey {";
 "    ///     First,";
 "    ///     Second,";
 "    /// }";
 "    ///";
 "    /// let mut map: Map<MyKey, i32> = Map::new();";
 "    /// assert_eq!(map.entry(MyKey::First).key(), MyKey::First);";
 "    /// ```";
 "    ///";
 "    /// Using a composite key:";
 "    ///";
 "    /// ```";
 "    /// use fixed_map::{Key, Map};";
 "    ///";
 "    /// #[derive(Clone, Copy, Key, Debug, PartialEq)]";
 "    /// enum MyKey {";
 "    ///     First(bool),";
 "    ///     Second,";
 "    /// }";
 "    ///";
 "    /// let mut map: Map<MyKey, i32> = Map::new();";
 "    /// assert_eq!(map.entry(MyKey::First(false)).key(), MyKey::First(false));";
 "    /// ```";
 "    #[inline]";
 "    pub fn key(&self) -> K {";
 "        match self {";
 "            Entry::Occupied(entry) => entry.key(),";
 "            Entry::Vacant(entry) => entry.key(),";
 "        }";
 "    }";
 "";
 "    /// Provides in-place mutable access to an occupied entry before any";
 "    /// potential inserts into the map.";
 "    ///";
 "    /// # Examples";
 "    ///";
 "    /// ```";
 "    /// use fixed_map::{Key, Map};";
 "    ///";
 "    /// #[derive(Clone, Copy, Key)]";
 "    /// enum MyKey {";
 "    ///     First,";
 "    ///     Second,";
 "    /// }";
 "    ///";
 "    /// let mut map: Map<MyKey, i32> = Map::new();";
 "    ///";
 "    /// map.entry(MyKey::First)";
 "    ///    .and_modify(|e| { *e += 1 })";
 "    ///    .or_insert(42);";
 "    /// assert_eq!(map.get(MyKey::First), Some(&42));";
 "    ///";
 "    /// map.entry(MyKey::First)";
 "    ///    .and_modify(|e| { *e += 1 })";
 "    ///    .or_insert(42);";
 "    /// assert_eq!(map.get(MyKey::First), Some(&43));";
 "    /// ```";
 "    ///";
 "    /// Using a composite key:";
 "    ///";
 "    /// ```";
 "    /// use fixed_map::{Key, Map};";
 "    ///";
 "    /// #[derive(Clone, Copy, Key)]";
 "    /// enum MyKey {";
 "    ///     First(bool),";
 "    ///     Second,";
 "    /// }";
 "    ///";
 "    /// let mut map: Map<MyKey, i32> = Map::new();";
 "    ///";
 "    /// map.entry(MyKey::First(true))";
 "    ///    .and_modify(|e| { *e += 1 })";
 "    ///    .or_insert(42);";
 "    /// assert_eq!(map.get(MyKey::First(true)), Some(&42));";
 "    ///";
 "    /// map.entry(MyKey::First(true))";
 "    ///    .and_modify(|e| { *e += 1 })";
 "    ///    .or_insert(42);";
 "    /// assert_eq!(map.get(MyKey::First(true)), Some(&43));";
 "    /// ```";
 "    #[inline]";
 "    #[must_use]";
 "    pub fn and_modify<F>(self, f: F) -> Self";
 "    where";
 "        F: FnOnce(&mut V),";
 "    {";
 "        match self {";
 "            Entry::Occupied(mut entry) => {";
 "                f(entry.get_mut());";
 "                Entry::Occupied(entry)";
 "            }";
 "            Entry::Vacant(entry) => Entry::Vacant(entry),";
 "        }";
 "    }";
 "";
 "    /// Ensures a value is in the entry by inserting the default value if empty,";
 "    /// and returns a mutable reference to the value in the entry.";
 "    ///";
 "    /// # Examples";
 "    ///";
 "    /// ```";
 "    /// use fixed_map::{Key, Map};";
 "    ///";
 "    /// #[derive(Clone, Copy, Key)]";
 "    /// enum MyKey {";
 "    ///     First,";
 "    ///     Second,";
 "    /// }";
 "    ///";
 "    /// let mut map: Map<MyKey, i32> = Map::new();";
 "    ///";
 "    /// map.entry(MyKey::First).or_default();";
 "    /// assert_eq!(map.get(MyKey::First), Some(&0));";
 "    /// ```";
 "    ///";
 "    /// Using a composite key:";
 "    ///";
 "    /// ```";
 "    /// use fixed_map::{Key, Map};";
 "    ///";
 "    /// #[derive(Clone, Copy, Key)]";
 "    /// enum MyKey {";
 "    ///     First(bool),";
 "    ///     Second,";
 "    /// }";
 "    ///";
 "    /// let mut map: Map<MyKey, i32> = Map::new();";
 "    ///";
 "    /// map.entry(MyKey::First(false)).or_default();";
 "    /// assert_eq!(map.get(MyKey::First(false)), Some(&0));";
 "    /// ```";
 "    #[inline]";
 "    pub fn or_default(self) -> &'a mut V";
 "    where";
 "        V: Default,";
 "    {";
 "        match self {";
 "            Entry::Occupied(entry) => entry.into_mut(),";
 "            Entry::Vacant(entry) => entry.insert(Default::default()),";
 "        }";
 "    }";
 "}"].

(** src/set/intersection.rs:1-97. *)
Definition text_set_intersection : list string :=
["//! Module that defines the [`Intersection`] for [`Set`].";
 "";
 "use core::fmt;";
 "";
 "use super::{Iter, Key, Set};";
 "";
 "/// A lazy iterator producing elements in the intersection of `Set`s.";
 "///";
 "/// This `struct` is created by the [`intersection`] method on [`Set`]. See its";
 "/// documentation for more.";
 "///";
 "/// [`intersection`]: Set::intersection";
 "///";
 "/// # Examples";
 "///";
 "/// ```";
 "/// use fixed_map::{Key, Set};";
 "///";
 "/// #[derive(Clone, Copy, Key, Debug)]";
 "/// enum K {";
 "///     One,";
 "///     Two,";
 "///     Three,";
 "/// }";
 "///";
 "/// let a = Set::from([K::One]);";
 "/// let b = Set::from([K::One, K::Two, K::Two]);";
 "///";
 "/// let intersection = a.intersection(&b).collect::<Set<_>>();";
 "/// assert_eq!(intersection, Set::from([K::One]));";
 "/// ```";
 "#[must_use = ""this returns the intersection as an iterator, \";
 "              without modifying either input set""]";
 "pub struct Intersection<'a, T: 'a + Key> {";
 "    // iterator of the first set";
 "    pub(super) iter: Iter<'a, T>,";
 "    // the second set";
 "    pub(super) other: &'a Set<T>,";
 "}";
 "";
 "impl<T: Key> Clone for Intersection<'_, T> {";
 "    #[inline]";
 "    fn clone(&self) -> Self {";
 "        Intersection {";
 "            iter: self.iter.clone(),";
 "            ..*self";
 "        }";
 "    }";
 "}";
 "";
 "impl<T> Iterator for Intersection<'_, T>";
 "where";
 "    T: Key,";
 "{";
 "    type Item = T;";
 "";
 "    #[inline]";
 "    fn next(&mut self) -> Option<T> {";
 "        loop {";
 "            let elt = self.iter.next()?;";
 "";
 "            if self.other.contains(elt) {";
 "                return Some(elt);";
 "            }";
 "        }";
 "    }";
 "";
 "    #[inline]";
 "    fn size_hint(&self) -> (usize, Option<usize>) {";
 "        let (_, upper) = self.iter.size_hint();";
 "        (0, upper)";
 "    }";
 "";
 "    #[inline]";
 "    fn fold<B, F>(self, init: B, mut f: F) -> B";
 "    where";
 "        Self: Sized,";
 "        F: FnMut(B, Self::Item) -> B,";
 "    {";
 "        self.iter.fold(init, |acc, elt| {";
 "            if self.other.contains(elt) {";
 "                f(acc, elt)";
 "            } else {";
 "                acc";
 "            }";
 "        })";
 "    }";
 "}";
 "";
 "impl<T> fmt::Debug for Intersection<'_, T>";
 "where";
 "    T: fmt::Debug + Key,";
 "{";
 "    fn fmt(&self, f: &mut fmt::Formatter<'_>) -> fmt::Result {";
 "        f.debug_list().entries(self.clone()).finish()";
 "    }";
 "}"].

(** src/macro_support.rs:1-72. *)
Definition text_macro_support : list string :=
["//! ## PRIVATE API";
 "//!";
 "//! This API is private, for use only in the `derive(Key)` macro. Usage for";
 "//! other purposes is not supported, and this API will not abide by semver";
 "//! stability guarantees.";
 "";
 "#![allow(clippy::missing_inline_in_public_items)]";
 "";
 "use core::cmp::Ordering;";
 "";
 "#[inline]";
 "fn flatten<T>(value: (usize, &Option<T>)) -> Option<(usize, &T)> {";
 "    match value {";
 "        (index, Some(value)) => Some((index, value)),";
 "        _ => None,";
 "    }";
 "}";
 "";
 "/// `partial_cmp` implementation over iterators which ensures that storage";
 "/// ordering between `None` and `Some` is handled in a reasonable manner.";
 "pub fn __storage_iterator_partial_cmp<'a, A, B, T>(a: A, b: B) -> Option<Ordering>";
 "where";
 "    A: IntoIterator<Item = &'a Option<T>>,";
 "    B: IntoIterator<Item = &'a Option<T>>,";
 "    T: 'a + PartialOrd<T>,";
 "{";
 "    let a = a.into_iter().enumerate().filter_map(flatten);";
 "    let b = b.into_iter().enumerate().filter_map(flatten);";
 "    a.partial_cmp(b)";
 "}";
 "";
 "/// `cmp` implementation over iterators which ensures that storage ordering";
 "/// between `None` and `Some` is handled in a reasonable manner.";
 "pub fn __storage_iterator_cmp<'a, A, B, T>(a: A, b: B) -> Ordering";
 "where";
 "    A: IntoIterator<Item = &'a Option<T>>,";
 "    B: IntoIterator<Item = &'a Option<T>>,";
 "    T: 'a + Ord,";
 "{";
 "    let a = a.into_iter().enumerate().filter_map(flatten);";
 "    let b = b.into_iter().enumerate().filter_map(flatten);";
 "    a.cmp(b)";
 "}";
 "";
 "#[inline]";
 "fn filter_bool(&(_, value): &(usize, &bool)) -> bool {";
 "    *value";
 "}";
 "";
 "/// `partial_cmp` implementation over iterators which ensures that storage";
 "/// ordering between `false` and `true` is handled in a reasonable manner.";
 "pub fn __storage_iterator_partial_cmp_bool<'a, A, B>(a: A, b: B) -> Option<Ordering>";
 "where";
 "    A: IntoIterator<Item = &'a bool>,";
 "    B: IntoIterator<Item = &'a bool>,";
 "{";
 "    let a = a.into_iter().enumerate().filter(filter_bool);";
 "    let b = b.into_iter().enumerate().filter(filter_bool);";
 "    a.partial_cmp(b)";
 "}";
 "";
 "/// `cmp` implementation over iterators which ensures that storage ordering";
 "/// between `false` and `true` is handled in a reasonable manner.";
 "pub fn __storage_iterator_cmp_bool<'a, A, B>(a: A, b: B) -> Ordering";
 "where";
 "    A: IntoIterator<Item = &'a bool>,";
 "    B: IntoIterator<Item = &'a bool>,";
 "{";
 "    let a = a.into_iter().enumerate().filter(filter_bool);";
 "    let b = b.into_iter().enumerate().filter(filter_bool);";
 "    a.cmp(b)";
 "}"].

(** src/map.rs:1-1448. *)
Definition text_map_rs : list string :=
["//! Contains the fixed [`Map`] implementation.";
 "";
 "mod entry;";
 "pub use self::entry::Entry;";
 "";
 "pub(crate) mod storage;";
 "pub use self::storage::{MapStorage, OccupiedEntry, VacantEntry};";
 "";
 "use core::cmp::{Ord, Ordering, PartialOrd};";
 "use core::fmt;";
 "use core::hash::{Hash, Hasher};";
 "";
 "use crate::Key;";
 "";
 "/// The iterator produced by [`Map::iter`].";
 "pub type Iter<'a, K, V> = <<K as Key>::MapStorage<V> as MapStorage<K, V>>::Iter<'a>;";
 "";
 "/// The iterator produced by [`Map::keys`].";
 "pub type Keys<'a, K, V> = <<K as Key>::MapStorage<V> as MapStorage<K, V>>::Keys<'a>;";
 "";
 "/// The iterator produced by [`Map::values`].";
 "pub type Values<'a, K, V> = <<K as Key>::MapStorage<V> as MapStorage<K, V>>::Values<'a>;";
 "";
 "/// The iterator produced by [`Map::iter`].";
 "pub type IterMut<'a, K, V> = <<K as Key>::MapStorage<V> as MapStorage<K, V>>::IterMut<'a>;";
 "";
 "/// The iterator produced by [`Map::values_mut`].";
 "pub type ValuesMut<'a, K, V> = <<K as Key>::MapStorage<V> as MapStorage<K, V>>::ValuesMut<'a>;";
 "";
 "/// The iterator produced by [`Map::into_iter`].";
 "pub type IntoIter<K, V> = <<K as Key>::MapStorage<V> as MapStorage<K, V>>::IntoIter;";
 "";
 "/// A fixed map with storage specialized through the [`Key`] trait.";
 "///";
 "/// # Examples";
 "///";
 "/// ```";
 "/// use fixed_map::{Key, Map};";
 "///";
 "/// #[derive(Clone, Copy, Key)]";
 "/// enum Part {";
 "///     One,";
 "///     Two,";
 "/// }";
 "///";
 "/// #[derive(Clone, Copy, Key)]";
 "/// enum MyKey {";
 "///     Simple,";
 "///     Composite(Part),";
 "///     # #[cfg(feature = ""hashbrown"")]";
 "///     String(&'static str),";
 "///     # #[cfg(feature = ""hashbrown"")]";
 "///     Number(u32),";
 "///     Singleton(()),";
 "///     Option(Option<Part>),";
 "///     Boolean(bool),";
 "/// }";
 "///";
 "/// let mut map = Map::new();";
 "///";
 "/// map.insert(MyKey::Simple, 1);";
 "/// map.insert(MyKey::Composite(Part::One), 2);";
 "/// # #[cfg(feature = ""hashbrown"")]";
 "/// map.insert(MyKey::String(""foo""), 3);";
 "/// # #[cfg(feature = ""hashbrown"")]";
 "/// map.insert(MyKey::Number(1), 4);";
 "/// map.insert(MyKey::Singleton(()), 5);";
 "/// map.insert(MyKey::Option(None), 6);";
 "/// map.insert(MyKey::Option(Some(Part::One)), 7);";
 "/// map.insert(MyKey::Boolean(true), 8);";
 "///";
 "/// assert_eq!(map.get(MyKey::Simple), Some(&1));";
 "/// assert_eq!(map.get(MyKey::Composite(Part::One)), Some(&2));";
 "/// assert_eq!(map.get(MyKey::Composite(Part::Two)), None);";
 "/// # #[cfg(feature = ""hashbrown"")]";
 "/// assert_eq!(map.get(MyKey::String(""foo"")), Some(&3));";
 "/// # #[cfg(feature = ""hashbrown"")]";
 "/// assert_eq!(map.get(MyKey::String(""bar"")), None);";
 "/// # #[cfg(feature = ""hashbrown"")]";
 "/// assert_eq!(map.get(MyKey::Number(1)), Some(&4));";
 "/// # #[cfg(feature = ""hashbrown"")]";
 "/// assert_eq!(map.get(MyKey::Number(2)), None);";
 "/// assert_eq!(map.get(MyKey::Singleton(())), Some(&5));";
 "/// assert_eq!(map.get(MyKey::Option(None)), Some(&6));";
 "/// assert_eq!(map.get(MyKey::Option(Some(Part::One))), Some(&7));";
 "/// assert_eq!(map.get(MyKey::Option(Some(Part::Two))), None);";
 "/// assert_eq!(map.get(MyKey::Boolean(true)), Some(&8));";
 "/// assert_eq!(map.get(MyKey::Boolean(false)), None);";
 "/// ```";
 "///";
 "/// Storing references:";
 "///";
 "/// ```";
 "/// use fixed_map::{Key, Map};";
 "///";
 "/// #[derive(Debug, Clone, Copy, Key)]";
 "/// enum MyKey {";
 "///     First,";
 "///     Second,";
 "/// }";
 "///";
 "/// let mut map = Map::new();";
 "/// let a = 42u32;";
 "///";
 "/// map.insert(MyKey::First, &a);";
 "///";
 "/// assert_eq!(map.values().cloned().collect::<Vec<_>>(), vec![&42u32]);";
 "/// ```";
 "#[repr(transparent)]";
 "pub struct Map<K, V>";
 "where";
 "    K: Key,";
 "{";
 "    storage: K::MapStorage<V>,";
 "}";
 "";
 "/// A map implementation that uses fixed storage.";
 "///";
 "/// # Examples";
 "///";
 "/// ```";
 "/// use fixed_map::{Key, Map};";
 "///";
 "/// #[derive(Clone, Copy, Key)]";
 "/// enum MyKey {";
 "///     One,";
 "///     Two,";
 "/// }";
 "///";
 "/// let mut m = Map::new();";
 "/// m.insert(MyKey::One, 1);";
 "///";
 "/// assert_eq!(m.get(MyKey::One), Some(&1));";
 "/// assert_eq!(m.get(MyKey::Two), None);";
 "/// ```";
 "///";
 "/// Using a composite key:";
 "///";
 "/// ```";
 "/// use fixed_map::{Key, Map};";
 "///";
 "/// #[derive(Clone, Copy, Key)]";
 "/// enum Part {";
 "///     A,";
 "///     B,";
 "/// }";
 "///";
 "/// #[derive(Clone, Copy, Key)]";
 "/// enum MyKey {";
 "///     Simple,";
 "///     Composite(Part),";
 "/// }";
 "///";
 "/// let mut m = Map::new();";
 "/// m.insert(MyKey::Simple, 1);";
 "/// m.insert(MyKey::Composite(Part::A), 2);";
 "///";
 "/// assert_eq!(m.get(MyKey::Simple), Some(&1));";
 "/// assert_eq!(m.get(MyKey::Composite(Part::A)), Some(&2));";
 "/// assert_eq!(m.get(MyKey::Composite(Part::B)), None);";
 "/// ```";
 "impl<K, V> Map<K, V>";
 "where";
 "    K: Key,";
 "{";
 "    /// Creates an empty [`Map`].";
 "    ///";
 "    /// # Examples";
 "    ///";
 "    /// ```";
 "    /// use fixed_map::{Key, Map};";
 "    ///";
 "    /// #[derive(Clone, Copy, Key)]";
 "    /// enum MyKey {";
 "    ///     One,";
 "    ///     Two,";
 "    /// }";
 "    ///";
 "    /// let mut map: Map<MyKey, i32> = Map::new();";
 "    /// ```";
 "    #[inline]";
 "    #[must_use]";
 "    pub fn new() -> Map<K, V> {";
 "        Map {";
 "            storage: K::MapStorage::empty(),";
 "        }";
 "    }";
 "";
 "    /// An iterator visiting all key-value pairs in arbitrary order.";
 "    /// The iterator element type is `(K, &'a V)`.";
 "    ///";
 "    /// # Examples";
 "    ///";
 "    /// ```";
 "    /// use fixed_map::{Key, Map};";
 "    ///";
 "    /// #[derive(Debug, Clone, Copy, PartialEq, Eq, Key)]";
 "    /// enum MyKey {";
 "    ///     One,";
 "    ///     Two,";
 "    ///     Three,";
 "    /// }";
 "    ///";
 "    /// let mut map = Map::new();";
 "    /// map.insert(MyKey::One, 1);";
 "    /// map.insert(MyKey::Two, 2);";
 "    ///";
 "    /// assert_eq!(map.iter().collect::<Vec<_>>(), vec![(MyKey::One, &1), (MyKey::Two, &2)]);";
 "    /// ```";
 "    #[inline]";
 "    pub fn iter(&self) -> Iter<'_, K, V> {";
 "        self.storage.iter()";
 "    }";
 "";
 "    /// An iterator visiting all keys in arbitrary order.";
 "    /// The iterator element type is `K`.";
 "    ///";
 "    /// # Examples";
 "    ///";
 "    /// ```";
 "    /// use fixed_map::{Key, Map};";
 "    ///";
 "    /// #[derive(Debug, Clone, Copy, PartialEq, Eq, Key)]";
 "    /// pub enum MyKey {";
 "    ///     First,";
 "    ///     Second,";
 "    ///     Third,";
 "    /// }";
 "    ///";
 "    /// let mut map = Map::new();";
 "    /// map.insert(MyKey::First, 1);";
 "    /// map.insert(MyKey::Second, 2);";
 "    ///";
 "    /// assert!(map.keys().eq([MyKey::First, MyKey::Second]));";
 "    /// assert!(map.keys().rev().eq([MyKey::Second, MyKey::First]));";
 "    /// ```";
 "    ///";
 "    /// Using a composite key:";
 "    ///";
 "    /// ```";
 "    /// use fixed_map::{Key, Map};";
 "    ///";
 "    /// #[derive(Debug, Clone, Copy, PartialEq, Eq, Key)]";
 "    /// pub enum MyKey {";
 "    ///     First,";
 "    ///     Second(bool),";
 "    ///     Third,";
 "    /// }";
 "    ///";
 "    /// let mut map = Map::new();";
 "    /// map.insert(MyKey::First, 1);";
 "    /// map.insert(MyKey::Second(false), 2);";
 "    ///";
 "    /// dbg!(map.keys().collect::<Vec<_>>());";
 "    ///";
 "    /// assert!(map.keys().eq([MyKey::First, MyKey::Second(false)]));";
 "    /// assert!(map.keys().rev().eq([MyKey::Second(false), MyKey::First]));";
 "    /// ```";
 "    #[inline]";
 "    pub fn keys(&self) -> Keys<'_, K, V> {";
 "        self.storage.keys()";
 "    }";
 "";
 "    /// An iterator visiting all values in arbitrary order.";
 "    /// The iterator element type is `&'a V`.";
 "    ///";
 "    /// # Examples";
 "    ///";
 "    /// ```";
 "    /// use fixed_map::{Key, Map};";
 "    ///";
 "    /// #[derive(Debug, Clone, Copy, PartialEq, Eq, Key)]";
 "    /// pub enum MyKey {";
 "    ///     First,";
 "    ///     Second,";
 "    ///     Third,";
 "    /// }";
 "    ///";
 "    /// let mut map = Map::new();";
 "    /// map.insert(MyKey::First, 1);";
 "    /// map.insert(MyKey::Second, 2);";
 "    ///";
 "    /// assert!(map.values().copied().eq([1, 2]));";
 "    /// assert!(map.values().rev().copied().eq([2, 1]));";
 "    /// ```";
 "    ///";
 "    /// Using a composite key:";
 "    ///";
 "    /// ```";
 "    /// use fixed_map::{Key, Map};";
 "    ///";
 "    /// #[derive(Debug, Clone, Copy, PartialEq, Eq, Key)]";
 "    /// pub enum MyKey {";
 "    ///     First(bool),";
 "    ///     Second,";
 "    ///     Third,";
 "    /// }";
 "    ///";
 "    /// let mut map = Map::new();";
 "    /// map.insert(MyKey::First(false), 1);";
 "    /// map.insert(MyKey::Second, 2);";
 "    ///";
 "    /// assert!(map.values().copied().eq([1, 2]));";
 "    /// assert!(map.values().rev().copied().eq([2, 1]));";
 "    /// ```";
 "    #[inline]";
 "    pub fn values(&self) -> Values<'_, K, V> {";
 "        self.storage.values()";
 "    }";
 "";
 "    /// An iterator visiting all key-value pairs in arbitrary order,";
 "    /// with mutable references to the values.";
 "    /// The iterator element type is `(K, &'a mut V)`.";
 "    ///";
 "    /// # Examples";
 "    ///";
 "    /// ```";
 "    /// use fixed_map::{Key, Map};";
 "    ///";
 "    /// #[derive(Debug, Clone, Copy, PartialEq, Eq, Key)]";
 "    /// enum MyKey {";
 "    ///     First,";
 "    ///     Second,";
 "    /// }";
 "    ///";
 "    /// let mut map = Map::new();";
 "    /// map.insert(MyKey::First, 1);";
 "    /// map.insert(MyKey::Second, 2);";
 "    ///";
 "    /// // Update all values";
 "    /// for (_, val) in map.iter_mut() {";
 "    ///     *val *= 2;";
 "    /// }";
 "    ///";
 "    /// assert!(map.iter().eq([(MyKey::First, &2), (MyKey::Second, &4)]));";
 "    /// ```";
 "    ///";
 "    /// Using a composite key:";
 "    ///";
 "    /// ```";
 "    /// use fixed_map::{Key, Map};";
 "    ///";
 "    /// #[derive(Debug, Clone, Copy, PartialEq, Eq, Key)]";
 "    /// enum MyKey {";
 "    ///     First(bool),";
 "    ///     Second,";
 "    /// }";
 "    ///";
 "    /// let mut map = Map::new();";
 "    /// map.insert(MyKey::First(true), 1);";
 "    /// map.insert(MyKey::Second, 2);";
 "    ///";
 "    /// // Update all values";
 "    /// for (_, val) in map.iter_mut() {";
 "    ///     *val *= 2;";
 "    /// }";
 "    ///";
 "    /// assert!(map.iter().eq([(MyKey::First(true), &2), (MyKey::Second, &4)]));";
 "    /// ```";
 "    #[inline]";
 "    pub fn iter_mut(&mut self) -> IterMut<'_, K, V> {";
 "        self.storage.iter_mut()";
 "    }";
 "";
 "    /// An iterator visiting all values mutably in arbitrary order.";
 "    /// The iterator element type is `&'a mut V`.";
 "    ///";
 "    /// # Examples";
 "    ///";
 "    /// ```";
 "    /// use fixed_map::{Key, Map};";
 "    ///";
 "    /// #[derive(Debug, Clone, Copy, PartialEq, Eq, Key)]";
 "    /// pub enum MyKey {";
 "    ///     First,";
 "    ///     Second,";
 "    /// }";
 "    ///";
 "    /// let mut map = Map::new();";
 "    /// map.insert(MyKey::First, 2);";
 "    /// map.insert(MyKey::Second, 5);";
 "    ///";
 "    /// for (index, val) in map.values_mut().enumerate() {";
 "    ///     *val *= index + 1;";
 "    /// }";
 "    ///";
 "    /// assert!(map.values().copied().eq([2, 10]));";
 "    ///";
 "    /// let mut map = Map::new();";
 "    /// map.insert(MyKey::First, 2);";
 "    /// map.insert(MyKey::Second, 5);";
 "    ///";
 "    /// for (index, val) in map.values_mut().rev().enumerate() {";
 "    ///     *val *= index + 1;";
 "    /// }";
 "    ///";
 "    /// assert!(map.values().copied().eq([4, 5]));";
 "    /// ```";
 "    ///";
 "    /// Using a composite key:";
 "    ///";
 "    /// ```";
 "    /// use fixed_map::{Key, Map};";
 "    ///";
 "    /// #[derive(Debug, Clone, Copy, PartialEq, Eq, Key)]";
 "    /// pub enum MyKey {";
 "    ///     First(bool),";
 "    ///     Second,";
 "    /// }";
 "    ///";
 "    /// let mut map = Map::new();";
 "    /// map.insert(MyKey::First(false), 2);";
 "    /// map.insert(MyKey::Second, 5);";
 "    ///";
 "    /// for (index, val) in map.values_mut().enumerate() {";
 "    ///     *val *= index + 1;";
 "    /// }";
 "    ///";
 "    /// assert!(map.values().copied().eq([2, 10]));";
 "    ///";
 "    /// let mut map = Map::new();";
 "    /// map.insert(MyKey::First(false), 2);";
 "    /// map.insert(MyKey::Second, 5);";
 "    ///";
 "    /// for (index, val) in map.values_mut().rev().enumerate() {";
 "    ///     *val *= index + 1;";
 "    /// }";
 "    ///";
 "    /// assert!(map.values().copied().eq([4, 5]));";
 "    /// ```";
 "    #[inline]";
 "    pub fn values_mut(&mut self) -> ValuesMut<'_, K, V> {";
 "        self.storage.values_mut()";
 "    }";
 "";
 "    /// Returns `true` if the map currently contains the given key.";
 "    ///";
 "    /// # Examples";
 "    ///";
 "    /// ```";
 "    /// use fixed_map::{Key, Map};";
 "    ///";
 "    /// #[derive(Clone, Copy, Key)]";
 "    /// enum MyKey {";
 "    ///     First,";
 "    ///     Second,";
 "    /// }";
 "    ///";
 "    /// let mut map = Map::new();";
 "    /// map.insert(MyKey::First, ""a"");";
 "    /// assert_eq!(map.contains_key(MyKey::First), true);";
 "    /// assert_eq!(map.contains_key(MyKey::Second), false);";
 "    /// ```";
 "    #[inline]";
 "    pub fn contains_key(&self, key: K) -> bool {";
 "        self.storage.contains_key(key)";
 "    }";
 "";
 "    /// Returns a reference to the value corresponding to the key.";
 "    ///";
 "    /// # Examples";
 "    ///";
 "    /// ```";
 "    /// use fixed_map::{Key, Map};";
 "    ///";
 "    /// #[derive(Clone, Copy, Key)]";
 "    /// enum MyKey {";
 "    ///     First,";
 "    ///     Second,";
 "    /// }";
 "    ///";
 "    /// let mut map = Map::new();";
 "    /// map.insert(MyKey::First, ""a"");";
 "    /// assert_eq!(map.get(MyKey::First).copied(), Some(""a""));";
 "    /// assert_eq!(map.get(MyKey::Second), None);";
 "    /// ```";
 "    ///";
 "    /// Using a composite key:";
 "    ///";
 "    /// ```";
 "    /// use fixed_map::{Key, Map};";
 "    ///";
 "    /// #[derive(Clone, Copy, Key)]";
 "    /// enum MyKey {";
 "    ///     First(bool),";
 "    ///     Second,";
 "    /// }";
 "    ///";
 "    /// let mut map = Map::new();";
 "    /// map.insert(MyKey::First(true), ""a"");";
 "    /// assert_eq!(map.get(MyKey::First(true)).copied(), Some(""a""));";
 "    /// assert_eq!(map.get(MyKey::Second), None);";
 "    /// ```";
 "    #[inline]";
 "    pub fn get(&self, key: K) -> Option<&V> {";
 "        self.storage.get(key)";
 "    }";
 "";
 "    /// Returns a mutable reference to the value corresponding to the key.";
 "    ///";
 "    /// # Examples";
 "    ///";
 "    /// ```";
 "    /// use fixed_map::{Key, Map};";
 "    ///";
 "    /// #[derive(Clone, Copy, Key)]";
 "    /// enum MyKey {";
 "    ///     First,";
 "    ///     Second,";
 "    /// }";
 "    ///";
 "    /// let mut map = Map::new();";
 "    /// map.insert(MyKey::First, ""a"");";
 "    ///";
 "    /// if let Some(x) = map.get_mut(MyKey::First) {";
 "    ///     *x = ""b"";";
 "    /// }";
 "    ///";
 "    /// assert_eq!(map.get(MyKey::First).copied(), Some(""b""));";
 "    /// ```";
 "    ///";
 "    /// Using a composite key:";
 "    ///";
 "    /// ```";
 "    /// use fixed_map::{Key, Map};";
 "    ///";
 "    /// #[derive(Clone, Copy, Key)]";
 "    /// enum MyKey {";
 "    ///     First(bool),";
 "    ///     Second(()),";
 "    ///     Third,";
 "    /// }";
 "    ///";
 "    /// let mut map = Map::new();";
 "    /// map.insert(MyKey::First(true), ""a"");";
 "    ///";
 "    /// if let Some(x) = map.get_mut(MyKey::First(true)) {";
 "    ///     *x = ""b"";";
 "    /// }";
 "    ///";
 "    /// assert_eq!(map.get(MyKey::First(true)).copied(), Some(""b""));";
 "    /// ```";
 "    #[inline]";
 "    pub fn get_mut(&mut self, key: K) -> Option<&mut V> {";
 "        self.storage.get_mut(key)";
 "    }";
 "";
 "    /// Inserts a key-value pair into the map.";
 "    ///";
 "    /// If the map did not have this key present, [`None`] is returned.";
 "    ///";
 "    /// If the map did have this key present, the value is updated, and the old";
 "    /// value is returned.";
 "    ///";
 "    /// # Examples";
 "    ///";
 "    /// ```";
 "    /// use fixed_map::{Key, Map};";
 "    ///";
 "    /// #[derive(Clone, Copy, Key)]";
 "    /// enum MyKey {";
 "    ///     One,";
 "    ///     Two,";
 "    /// }";
 "    ///";
 "    /// let mut map = Map::new();";
 "    /// assert_eq!(map.insert(MyKey::One, ""a""), None);";
 "    /// assert_eq!(map.is_empty(), false);";
 "    ///";
 "    /// map.insert(MyKey::Two, ""b"");";
 "    /// assert_eq!(map.insert(MyKey::Two, ""c""), Some(""b""));";
 "    /// assert_eq!(map.get(MyKey::Two), Some(&""c""));";
 "    /// ```";
 "    #[inline]";
 "    pub fn insert(&mut self, key: K, value: V) -> Option<V> {";
 "        self.storage.insert(key, value)";
 "    }";
 "";
 "    /// Removes a key from the map, returning the value at the key if the key";
 "    /// was previously in the map.";
 "    ///";
 "    /// # Examples";
 "    ///";
 "    /// ```";
 "    /// use fixed_map::{Key, Map};";
 "    ///";
 "    /// #[derive(Clone, Copy, Key)]";
 "    /// enum MyKey {";
 "    ///     One,";
 "    ///     Two,";
 "    /// }";
 "    ///";
 "    /// let mut map = Map::new();";
 "    /// map.insert(MyKey::One, ""a"");";
 "    /// assert_eq!(map.remove(MyKey::One), Some(""a""));";
 "    /// assert_eq!(map.remove(MyKey::One), None);";
 "    /// ```";
 "    #[inline]";
 "    pub fn remove(&mut self, key: K) -> Option<V> {";
 "        self.storage.remove(key)";
 "    }";
 "";
 "    /// Retains only the elements specified by the predicate.";
 "    ///";
 "    /// In other words, remove all pairs (k, v) for which f(k, &mut v) returns false.";
 "    /// The elements are visited in unsorted (and unspecified) order.";
 "    ///";
 "    /// # Examples";
 "    ///";
 "    /// ```";
 "    /// use fixed_map::{Key, Map};";
 "    ///";
 "    /// #[derive(Clone, Copy, Key)]";
 "    /// enum MyKey {";
 "    ///     First,";
 "    ///     Second,";
 "    /// }";
 "    ///";
 "    /// let mut map: Map<MyKey, i32> = Map::new();";
 "    ///";
 "    /// map.insert(MyKey::First, 42);";
 "    /// map.insert(MyKey::Second, -10);";
 "    ///";
 "    /// map.retain(|k, v| *v > 0);";
 "    ///";
 "    /// assert_eq!(map.len(), 1);";
 "    /// assert_eq!(map.get(MyKey::First), Some(&42));";
 "    /// assert_eq!(map.get(MyKey::Second), None);";
 "    /// ```";
 "    ///";
 "    /// Using a composite key:";
 "    ///";
 "    /// ```";
 "    /// use fixed_map::{Key, Map};";
 "    ///";
 "    /// #[derive(Clone, Copy, Key)]";
 "    /// enum MyKey {";
 "    ///     First(bool),";
 "    ///     Second,";
 "    /// }";
 "    ///";
 "    /// let mut map: Map<MyKey, i32> = Map::new();";
 "    ///";
 "    /// map.insert(MyKey::First(true), 42);";
 "    /// map.insert(MyKey::First(false), -31);";
 "    /// map.insert(MyKey::Second, 100);";
 "    ///";
 "    /// let mut other = map.clone();";
 "    /// assert_eq!(map.len(), 3);";
 "    ///";
 "    /// map.retain(|k, v| *v > 0);";
 "    ///";
 "    /// assert_eq!(map.len(), 2);";
 "    /// assert_eq!(map.get(MyKey::First(true)), Some(&42));";
 "    /// assert_eq!(map.get(MyKey::First(false)), None);";
 "    /// assert_eq!(map.get(MyKey::Second), Some(&100));";
 "    ///";
 "    /// other.retain(|k, v| matches!(k, MyKey::First(_)));";
 "    ///";
 "    /// assert_eq!(other.len(), 2);";
 "    /// assert_eq!(other.get(MyKey::First(true)), Some(&42));";
 "    /// assert_eq!(other.get(MyKey::First(false)), Some(&-31));";
 "    /// assert_eq!(other.get(MyKey::Second), None);";
 "    /// ```";
 "    #[inline]";
 "    pub fn retain<F>(&mut self, f: F)";
 "    where";
 "        F: FnMut(K, &mut V) -> bool,";
 "    {";
 "        self.storage.retain(f);";
 "    }";
 "";
 "    /// Clears the map, removing all key-value pairs. Keeps the allocated memory";
 "    /// for reuse.";
 "    ///";
 "    /// # Examples";
 "    ///";
 "    /// ```";
 "    /// use fixed_map::{Key, Map};";
 "    ///";
 "    /// #[derive(Clone, Copy, Key)]";
 "    /// enum MyKey {";
 "    ///     One,";
 "    ///     Two,";
 "    /// }";
 "    ///";
 "    /// let mut map = Map::new();";
 "    /// map.insert(MyKey::One, ""a"");";
 "    /// map.clear();";
 "    /// assert!(map.is_empty());";
 "    /// ```";
 "    #[inline]";
 "    pub fn clear(&mut self) {";
 "        self.storage.clear();";
 "    }";
 "";
 "    /// Returns true if the map contains no elements.";
 "    ///";
 "    /// # Examples";
 "    ///";
 "    /// ```";
 "    /// use fixed_map::{Key, Map};";
 "    ///";
 "    /// #[derive(Clone, Copy, Key)]";
 "    /// enum MyKey {";
 "    ///     First,";
 "    ///     Second,";
 "    /// }";
 "    ///";
 "    /// let mut map = Map::new();";
 "    /// assert!(map.is_empty());";
 "    /// map.insert(MyKey::First, 1);";
 "    /// assert!(!map.is_empty());";
 "    /// ```";
 "    ///";
 "    /// An empty key:";
 "    ///";
 "    /// ```";
 "    /// use fixed_map::{Key, Map};";
 "    ///";
 "    /// #[derive(Clone, Copy, Key)]";
 "    /// enum MyKey {}";
 "    ///";
 "    /// let map = Map::<MyKey, u32>::new();";
 "    /// assert!(map.is_empty());";
 "    /// ```";
 "    #[inline]";
 "    pub fn is_empty(&self) -> bool {";
 "        self.storage.is_empty()";
 "    }";
 "";
 "    /// Gets the current length of a [`Map`].";
 "    ///";
 "    /// # Examples";
 "    ///";
 "    /// ```";
 "    /// use fixed_map::{Key, Map};";
 "    ///";
 "    /// #[derive(Clone, Copy, Key)]";
 "    /// enum MyKey {";
 "    ///     First,";
 "    ///     Second,";
 "    /// }";
 "    ///";
 "    /// let mut map: Map<MyKey, i32> = Map::new();";
 "    /// assert_eq!(map.len(), 0);";
 "    ///";
 "    /// map.insert(MyKey::First, 42);";
 "    /// assert_eq!(map.len(), 1);";
 "    ///";
 "    /// map.insert(MyKey::First, 42);";
 "    /// assert_eq!(map.len(), 1);";
 "    ///";
 "    /// map.remove(MyKey::First);";
 "    /// assert_eq!(map.len(), 0);";
 "    /// ```";
 "    ///";
 "    /// Using a composite key:";
 "    ///";
 "    /// ```";
 "    /// use fixed_map::{Key, Map};";
 "    ///";
 "    /// #[derive(Clone, Copy, Key)]";
 "    /// enum MyKey {";
 "    ///     First(bool),";
 "    ///     Second,";
 "    /// }";
 "    ///";
 "    /// let mut map: Map<MyKey, i32> = Map::new();";
 "    /// assert_eq!(map.len(), 0);";
 "    ///";
 "    /// map.insert(MyKey::First(true), 42);";
 "    /// assert_eq!(map.len(), 1);";
 "    ///";
 "    /// map.insert(MyKey::First(false), 42);";
 "    /// assert_eq!(map.len(), 2);";
 "    ///";
 "    /// map.remove(MyKey::First(true));";
 "    /// assert_eq!(map.len(), 1);";
 "    /// ```";
 "    #[inline]";
 "    pub fn len(&self) -> usize {";
 "        self.storage.len()";
 "    }";
 "";
 "    /// Gets the given key’s corresponding [`Entry`] in the [`Map`] for in-place manipulation.";
 "    ///";
 "    /// # Examples";
 "    ///";
 "    /// ```";
 "    /// use fixed_map::{Key, Map};";
 "    ///";
 "    /// #[derive(Clone, Copy, Key)]";
 "    /// enum MyKey {";
 "    ///     Even,";
 "    ///     Odd,";
 "    /// }";
 "    ///";
 "    /// let mut map: Map<MyKey, u32> = Map::new();";
 "    ///";
 "    /// for n in [3, 45, 3, 23, 2, 10, 59, 11, 51, 70] {";
 "    ///     map";
 "    ///         .entry(if n % 2 == 0 { MyKey::Even } else { MyKey::Odd })";
 "    ///         .and_modify(|x| *x += 1)";
 "    ///         .or_insert(1);";
 "    /// }";
 "    ///";
 "    /// assert_eq!(map.get(MyKey::Even), Some(&3));";
 "    /// assert_eq!(map.get(MyKey::Odd), Some(&7));";
 "    /// ```";
 "    ///";
 "    /// Using a composite key:";
 "    ///";
 "    /// ```";
 "    /// use fixed_map::{Key, Map};";
 "    ///";
 "    /// #[derive(Clone, Copy, Key)]";
 "    /// enum MyKey {";
 "    ///     First(bool),";
 "    ///     Second,";
 "    /// }";
 "    ///";
 "    /// let mut map: Map<MyKey, Vec<i32>> = Map::new();";
 "    ///";
 "    /// map.entry(MyKey::First(true)).or_default().push(1);";
 "    /// map.entry(MyKey::Second).or_insert_with(|| vec![2; 8]).truncate(4);";
 "    ///";
 "    /// assert_eq!(map.get(MyKey::First(true)), Some(&vec![1]));";
 "    /// assert_eq!(map.get(MyKey::Second), Some(&vec![2; 4]));";
 "    /// ```";
 "    #[inline]";
 "    pub fn entry(&mut self, key: K) -> Entry<'_, K::MapStorage<V>, K, V> {";
 "        K::MapStorage::entry(&mut self.storage, key)";
 "    }";
 "}";
 "";
 "/// [`Clone`] implementation for a [`Map`].";
 "///";
 "/// # Examples";
 "///";
 "/// ```";
 "/// use fixed_map::{Key, Map};";
 "///";
 "/// #[derive(Debug, Clone, Copy, Key)]";
 "/// enum MyKey {";
 "///     First(bool),";
 "///     Second,";
 "/// }";
 "///";
 "/// let mut a = Map::new();";
 "/// a.insert(MyKey::First(true), 1);";
 "/// let mut b = a.clone();";
 "/// b.insert(MyKey::Second, 2);";
 "///";
 "/// assert_ne!(a, b);";
 "///";
 "/// assert_eq!(a.get(MyKey::First(true)), Some(&1));";
 "/// assert_eq!(a.get(MyKey::Second), None);";
 "///";
 "/// assert_eq!(b.get(MyKey::First(true)), Some(&1));";
 "/// assert_eq!(b.get(MyKey::Second), Some(&2));";
 "/// ```";
 "impl<K, V> Clone for Map<K, V>";
 "where";
 "    K: Key,";
 "    K::MapStorage<V>: Clone,";
 "{";
 "    #[inline]";
 "    fn clone(&self) -> Map<K, V> {";
 "        Map {";
 "            storage: self.storage.clone(),";
 "        }";
 "    }";
 "}";
 "";
 "/// The [`Copy`] implementation for a [`Map`] depends on its [`Key`]. If the";
 "/// derived key only consists of unit variants the corresponding [`Map`] will be";
 "/// [`Copy`] as well.";
 "///";
 "/// # Examples";
 "///";
 "/// ```";
 "/// use fixed_map::{Key, Map};";
 "///";
 "/// #[derive(Debug, Clone, Copy, Key)]";
 "/// enum MyKey {";
 "///     First,";
 "///     Second,";
 "/// }";
 "///";
 "/// let mut a = Map::new();";
 "/// a.insert(MyKey::First, 1);";
 "/// let mut b = a;";
 "/// b.insert(MyKey::Second, 2);";
 "///";
 "/// assert_ne!(a, b);";
 "///";
 "/// assert_eq!(a.get(MyKey::First), Some(&1));";
 "/// assert_eq!(a.get(MyKey::Second), None);";
 "///";
 "/// assert_eq!(b.get(MyKey::First), Some(&1));";
 "/// assert_eq!(b.get(MyKey::Second), Some(&2));";
 "/// ```";
 "impl<K, V> Copy for Map<K, V>";
 "where";
 "    K: Key,";
 "    K::MapStorage<V>: Copy,";
 "{";
 "}";
 "";
 "/// The [`Default`] implementation for a [`Map`] produces an empty map.";
 "///";
 "/// # Examples";
 "///";
 "/// ```";
 "/// use fixed_map::{Key, Map};";
 "///";
 "/// #[derive(Debug, Clone, Copy, Key)]";
 "/// enum MyKey {";
 "///     First,";
 "///     Second,";
 "/// }";
 "///";
 "/// let a = Map::<MyKey, u32>::default();";
 "/// let b = Map::<MyKey, u32>::new();";
 "///";
 "/// assert_eq!(a, b);";
 "/// ```";
 "impl<K, V> Default for Map<K, V>";
 "where";
 "    K: Key,";
 "{";
 "    #[inline]";
 "    fn default() -> Self {";
 "        Self::new()";
 "    }";
 "}";
 "";
 "/// The [`Debug`][fmt::Debug] implementation for a [`Map`].";
 "///";
 "/// # Examples";
 "///";
 "/// ```";
 "/// use fixed_map::{Key, Map};";
 "///";
 "/// #[derive(Debug, Clone, Copy, Key)]";
 "/// enum MyKey {";
 "///     First,";
 "///     Second,";
 "/// }";
 "///";
 "/// let mut a = Map::new();";
 "/// a.insert(MyKey::First, 42);";
 "///";
 "/// assert_eq!(""{First: 42}"", format!(""{:?}"", a));";
 "/// ```";
 "impl<K, V> fmt::Debug for Map<K, V>";
 "where";
 "    K: Key + fmt::Debug,";
 "    V: fmt::Debug,";
 "{";
 "    #[inline]";
 "    fn fmt(&self, f: &mut fmt::Formatter<'_>) -> fmt::Result {";
 "        f.debug_map().entries(self.iter()).finish()";
 "    }";
 "}";
 "";
 "/// [`PartialEq`] implementation for a [`Map`].";
 "///";
 "/// # Examples";
 "///";
 "/// ```";
 "/// use fixed_map::{Key, Map};";
 "///";
 "/// #[derive(Debug, Clone, Copy, Key)]";
 "/// enum MyKey {";
 "///     First,";
 "///     Second,";
 "/// }";
 "///";
 "/// let mut a = Map::new();";
 "/// a.insert(MyKey::First, 42);";
 "/// // Note: `a` is Copy since it's using a simple key.";
 "/// let mut b = a;";
 "///";
 "/// assert_eq!(a, b);";
 "///";
 "/// b.insert(MyKey::Second, 42);";
 "/// assert_ne!(a, b);";
 "/// ```";
 "///";
 "/// Using a composite key:";
 "///";
 "/// ```";
 "/// use fixed_map::{Key, Map};";
 "///";
 "/// #[derive(Debug, Clone, Copy, Key)]";
 "/// enum MyKey {";
 "///     First(bool),";
 "///     Second,";
 "/// }";
 "///";
 "/// let mut a = Map::new();";
 "/// a.insert(MyKey::First(true), 42);";
 "/// let mut b = a.clone();";
 "///";
 "/// assert_eq!(a, b);";
 "///";
 "/// b.insert(MyKey::Second, 42);";
 "/// assert_ne!(a, b);";
 "/// ```";
 "impl<K, V> PartialEq for Map<K, V>";
 "where";
 "    K: Key,";
 "    K::MapStorage<V>: PartialEq,";
 "{";
 "    #[inline]";
 "    fn eq(&self, other: &Self) -> bool {";
 "        self.storage == other.storage";
 "    }";
 "}";
 "";
 "impl<K, V> Eq for Map<K, V>";
 "where";
 "    K: Key,";
 "    K::MapStorage<V>: Eq,";
 "{";
 "}";
 "";
 "/// [`Hash`] implementation for a [`Set`].";
 "///";
 "/// [`Set`]: crate::Set";
 "///";
 "/// # Examples";
 "///";
 "/// ```";
 "/// use std::collections::HashSet;";
 "///";
 "/// use fixed_map::{Key, Map};";
 "///";
 "/// #[derive(Debug, Clone, Copy, Hash, Key)]";
 "/// enum MyKey {";
 "///     First,";
 "///     Second,";
 "/// }";
 "///";
 "/// let mut a = Map::new();";
 "/// a.insert(MyKey::First, 1);";
 "///";
 "/// let mut set = HashSet::new();";
 "/// set.insert(a);";
 "/// ```";
 "///";
 "/// Using a composite key:";
 "///";
 "/// ```";
 "/// use std::collections::HashSet;";
 "///";
 "/// use fixed_map::{Key, Map};";
 "///";
 "/// #[derive(Debug, Clone, Copy, Hash, Key)]";
 "/// enum MyKey {";
 "///     First(bool),";
 "///     Second,";
 "/// }";
 "///";
 "/// let mut a = Map::new();";
 "/// a.insert(MyKey::First(true), 1);";
 "///";
 "/// // TODO: support this";
 "/// // let mut set = HashSet::new();";
 "/// // set.insert(a);";
 "/// ```";
 "impl<K, V> Hash for Map<K, V>";
 "where";
 "    K: Key,";
 "    K::MapStorage<V>: Hash,";
 "{";
 "    #[inline]";
 "    fn hash<H>(&self, state: &mut H)";
 "    where";
 "        H: Hasher,";
 "    {";
 "        self.storage.hash(state);";
 "    }";
 "}";
 "";
 "/// [`PartialOrd`] implementation for a [`Map`].";
 "///";
 "/// For more details on ordering, see the [`Key`] documentation.";
 "///";
 "/// # Examples";
 "///";
 "/// ```";
 "/// use fixed_map::{Key, Map};";
 "///";
 "/// #[derive(Debug, Clone, Copy, Hash, Key)]";
 "/// enum MyKey {";
 "///     First,";
 "///     Second,";
 "///     Third,";
 "/// }";
 "///";
 "/// let mut a = Map::new();";
 "/// a.insert(MyKey::First, 1);";
 "///";
 "/// let mut b = Map::new();";
 "/// b.insert(MyKey::Third, 1);";
 "///";
 "/// assert!(a < b);";
 "///";
 "/// let mut empty = Map::new();";
 "/// assert!(empty < a);";
 "/// assert!(empty < b);";
 "/// ```";
 "///";
 "/// Using a composite key:";
 "///";
 "/// ```";
 "/// use fixed_map::{Key, Map};";
 "///";
 "/// #[derive(Debug, Clone, Copy, Hash, Key)]";
 "/// enum MyKey {";
 "///     First(bool),";
 "///     Second,";
 "/// }";
 "///";
 "/// let mut a = Map::new();";
 "/// a.insert(MyKey::First(true), 1);";
 "///";
 "/// let mut b = Map::new();";
 "/// b.insert(MyKey::Second, 1);";
 "///";
 "/// // TODO: support this";
 "/// // assert!(a < b);";
 "/// ```";
 "impl<K, V> PartialOrd for Map<K, V>";
 "where";
 "    K: Key,";
 "    K::MapStorage<V>: PartialOrd,";
 "{";
 "    #[inline]";
 "    fn partial_cmp(&self, other: &Self) -> Option<Ordering> {";
 "        self.storage.partial_cmp(&other.storage)";
 "    }";
 "";
 "    #[inline]";
 "    fn lt(&self, other: &Self) -> bool {";
 "        self.storage.lt(&other.storage)";
 "    }";
 "";
 "    #[inline]";
 "    fn le(&self, other: &Self) -> bool {";
 "        self.storage.le(&other.storage)";
 "    }";
 "";
 "    #[inline]";
 "    fn gt(&self, other: &Self) -> bool {";
 "        self.storage.gt(&other.storage)";
 "    }";
 "";
 "    #[inline]";
 "    fn ge(&self, other: &Self) -> bool {";
 "        self.storage.ge(&other.storage)";
 "    }";
 "}";
 "";
 "/// [`Ord`] implementation for a [`Map`].";
 "///";
 "/// For more details on ordering, see the [`Key`] documentation.";
 "///";
 "/// # Examples";
 "///";
 "/// ```";
 "/// use fixed_map::{Key, Map};";
 "///";
 "/// #[derive(Debug, Clone, Copy, Hash, Key)]";
 "/// enum MyKey {";
 "///     First,";
 "///     Second,";
 "/// }";
 "///";
 "/// let mut a = Map::new();";
 "/// a.insert(MyKey::First, 1);";
 "///";
 "/// let mut b = Map::new();";
 "/// b.insert(MyKey::Second, 1);";
 "///";
 "/// let mut list = vec![b, a];";
 "/// list.sort();";
 "///";
 "/// assert_eq!(list, [a, b]);";
 "/// ```";
 "///";
 "/// Using a composite key:";
 "///";
 "/// ```";
 "/// use fixed_map::{Key, Map};";
 "///";
 "/// #[derive(Debug, Clone, Copy, Hash, Key)]";
 "/// enum MyKey {";
 "///     First(bool),";
 "///     Second,";
 "/// }";
 "///";
 "/// let mut a = Map::new();";
 "/// a.insert(MyKey::First(true), 1);";
 "///";
 "/// let mut b = Map::new();";
 "/// b.insert(MyKey::Second, 1);";
 "///";
 "/// // TODO: support this";
 "/// // let mut list = vec![a, b];";
 "/// // list.sort();";
 "/// ```";
 "impl<K, V> Ord for Map<K, V>";
 "where";
 "    K: Key,";
 "    K::MapStorage<V>: Ord,";
 "{";
 "    #[inline]";
 "    fn cmp(&self, other: &Self) -> Ordering {";
 "        self.storage.cmp(&other.storage)";
 "    }";
 "";
 "    #[inline]";
 "    fn max(self, other: Self) -> Self {";
 "        Self {";
 "            storage: self.storage.max(other.storage),";
 "        }";
 "    }";
 "";
 "    #[inline]";
 "    fn min(self, other: Self) -> Self {";
 "        Self {";
 "            storage: self.storage.min(other.storage),";
 "        }";
 "    }";
 "";
 "    #[inline]";
 "    fn clamp(self, min: Self, max: Self) -> Self {";
 "        Self {";
 "            storage: self.storage.clamp(min.storage, max.storage),";
 "        }";
 "    }";
 "}";
 "";
 "impl<'a, K, V> IntoIterator for &'a Map<K, V>";
 "where";
 "    K: Key,";
 "{";
 "    type Item = (K, &'a V);";
 "    type IntoIter = Iter<'a, K, V>;";
 "";
 "    #[inline]";
 "    fn into_iter(self) -> Self::IntoIter {";
 "        self.iter()";
 "    }";
 "}";
 "";
 "/// [`IntoIterator`] implementation which uses [`Map::iter_mut`]. See its";
 "/// documentation for more.";
 "impl<'a, K, V> IntoIterator for &'a mut Map<K, V>";
 "where";
 "    K: Key,";
 "{";
 "    type Item = (K, &'a mut V);";
 "    type IntoIter = IterMut<'a, K, V>;";
 "";
 "    #[inline]";
 "    fn into_iter(self) -> Self::IntoIter {";
 "        self.iter_mut()";
 "    }";
 "}";
 "";
 "/// Produce an owning iterator visiting all key-value pairs of the [`Map`] in an";
 "/// arbitrary order. The iterator element type is `(K, V)`.";
 "///";
 "/// # Examples";
 "///";
 "/// ```";
 "/// use fixed_map::{Key, Map};";
 "///";
 "/// #[derive(Debug, Clone, Copy, PartialEq, Eq, Key)]";
 "/// enum MyKey {";
 "///     First,";
 "///     Second,";
 "///     Third,";
 "/// }";
 "///";
 "/// let mut map = Map::new();";
 "/// map.insert(MyKey::First, 1);";
 "/// map.insert(MyKey::Third, 3);";
 "///";
 "/// let mut it = map.into_iter();";
 "/// assert_eq!(it.next(), Some((MyKey::First, 1)));";
 "/// assert_eq!(it.next(), Some((MyKey::Third, 3)));";
 "/// assert_eq!(it.next(), None);";
 "///";
 "/// let mut it = map.into_iter().rev();";
 "/// assert_eq!(it.next(), Some((MyKey::Third, 3)));";
 "/// assert_eq!(it.next(), Some((MyKey::First, 1)));";
 "/// assert_eq!(it.next(), None);";
 "/// ```";
 "///";
 "/// Into iterator with a composite key:";
 "///";
 "/// ```";
 "/// use fixed_map::{Key, Map};";
 "///";
 "/// #[derive(Debug, Clone, Copy, PartialEq, Eq, Key)]";
 "/// enum MyKey {";
 "///     First(bool),";
 "///     Second,";
 "///     Third,";
 "/// }";
 "///";
 "/// let mut map = Map::<_, u32>::new();";
 "/// map.insert(MyKey::First(false), 1);";
 "/// map.insert(MyKey::Third, 3);";
 "///";
 "/// let mut it = map.into_iter();";
 "/// assert_eq!(it.next(), Some((MyKey::First(false), 1)));";
 "/// assert_eq!(it.next(), Some((MyKey::Third, 3)));";
 "/// assert_eq!(it.next(), None);";
 "///";
 "/// let mut it = map.into_iter().rev();";
 "/// assert_eq!(it.next(), Some((MyKey::Third, 3)));";
 "/// assert_eq!(it.next(), Some((MyKey::First(false), 1)));";
 "/// assert_eq!(it.next(), None);";
 "/// ```";
 "impl<K, V> IntoIterator for Map<K, V>";
 "where";
 "    K: Key,";
 "{";
 "    type Item = (K, V);";
 "    type IntoIter = IntoIter<K, V>;";
 "";
 "    #[inline]";
 "    fn into_iter(self) -> Self::IntoIter {";
 "        self.storage.into_iter()";
 "    }";
 "}";
 "";
 "/// A simple [`FromIterator`] implementation for [`Map`].";
 "///";
 "/// # Example";
 "///";
 "/// ```";
 "/// use fixed_map::{Key, Map};";
 "///";
 "/// #[derive(Debug, Clone, Copy, Key)]";
 "/// enum MyKey {";
 "///     First,";
 "///     Second,";
 "/// }";
 "///";
 "/// let v = vec![(MyKey::First, 1), (MyKey::Second, 2), (MyKey::First, 3)];";
 "/// let m: Map<_, u8> = v.into_iter().collect();";
 "///";
 "/// let mut n = Map::new();";
 "/// n.insert(MyKey::Second, 2);";
 "/// n.insert(MyKey::First, 3);";
 "///";
 "/// assert_eq!(m, n);";
 "/// ```";
 "impl<K, V> FromIterator<(K, V)> for Map<K, V>";
 "where";
 "    K: Key,";
 "{";
 "    #[inline]";
 "    fn from_iter<T>(iter: T) -> Self";
 "    where";
 "        T: IntoIterator<Item = (K, V)>,";
 "    {";
 "        let mut map = Self::new();";
 "        for (k, v) in iter {";
 "            map.insert(k, v);";
 "        }";
 "        map";
 "    }";
 "}";
 "";
 "#[cfg(feature = ""serde"")]";
 "impl<K, V> serde::Serialize for Map<K, V>";
 "where";
 "    K: Key + serde::Serialize,";
 "    V: serde::Serialize,";
 "{";
 "    #[inline]";
 "    fn serialize<S>(&self, serializer: S) -> Result<S::Ok, S::Error>";
 "    where";
 "        S: serde::Serializer,";
 "    {";
 "        use serde::ser::SerializeMap as _;";
 "";
 "        let mut map = serializer.serialize_map(Some(self.len()))?;";
 "";
 "        for (k, v) in self {";
 "            map.serialize_entry(&k, v)?;";
 "        }";
 "";
 "        map.end()";
 "    }";
 "}";
 "";
 "#[cfg(feature = ""serde"")]";
 "impl<'de, K, V> serde::de::Deserialize<'de> for Map<K, V>";
 "where";
 "    K: Key + serde::de::Deserialize<'de>,";
 "    V: serde::Deserialize<'de>,";
 "{";
 "    #[inline]";
 "    fn deserialize<D>(deserializer: D) -> Result<Self, D::Error>";
 "    where";
 "        D: serde::Deserializer<'de>,";
 "    {";
 "        struct MapVisitor<K, V>(core::marker::PhantomData<(K, V)>);";
 "";
 "        impl<'de, K, V> serde::de::Visitor<'de> for MapVisitor<K, V>";
 "        where";
 "            K: Key + serde::de::Deserialize<'de>,";
 "            V: serde::Deserialize<'de>,";
 "        {";
 "            type Value = Map<K, V>;";
 "";
 "            fn expecting(&self, formatter: &mut fmt::Formatter<'_>) -> fmt::Result {";
 "                formatter.write_str(""a map"")";
 "            }";
 "";
 "            #[inline]";
 "            fn visit_map<T>(self, mut visitor: T) -> Result<Self::Value, T::Error>";
 "            where";
 "                T: serde::de::MapAccess<'de>,";
 "            {";
 "                let mut map = Map::new();";
 "";
 "                while let Some((key, value)) = visitor.next_entry()? {";
 "                    map.insert(key, value);";
 "                }";
 "";
 "                Ok(map)";
 "            }";
 "        }";
 "";
 "        deserializer.deserialize_map(MapVisitor(core::marker::PhantomData))";
 "    }";
 "}"].

(** src/set.rs:1-1090. *)
Definition text_set_rs : list string :=
["//! Contains the fixed [`Set`] implementation.";
 "";
 "use core::cmp::Ordering;";
 "use core::fmt;";
 "use core::hash::{Hash, Hasher};";
 "";
 "pub mod intersection;";
 "pub mod storage;";
 "";
 "pub use self::intersection::Intersection;";
 "pub use self::storage::SetStorage;";
 "";
 "use crate::raw::RawStorage;";
 "use crate::Key;";
 "";
 "/// The iterator produced by [`Set::iter`].";
 "pub type Iter<'a, T> = <<T as Key>::SetStorage as SetStorage<T>>::Iter<'a>;";
 "";
 "/// The iterator produced by [`Set::into_iter`].";
 "pub type IntoIter<T> = <<T as Key>::SetStorage as SetStorage<T>>::IntoIter;";
 "";
 "/// A fixed set with storage specialized through the [`Key`] trait.";
 "///";
 "/// # Examples";
 "///";
 "/// ```";
 "/// use fixed_map::{Key, Set};";
 "///";
 "/// #[derive(Clone, Copy, Key)]";
 "/// enum Part {";
 "///     One,";
 "///     Two,";
 "/// }";
 "///";
 "/// #[derive(Clone, Copy, Key)]";
 "/// enum MyKey {";
 "///     Simple,";
 "///     Composite(Part),";
 "///     # #[cfg(feature = ""hashbrown"")]";
 "///     String(&'static str),";
 "///     # #[cfg(feature = ""hashbrown"")]";
 "///     Number(u32),";
 "///     Singleton(()),";
 "///     Option(Option<Part>),";
 "///     Boolean(bool),";
 "/// }";
 "///";
 "/// let mut set = Set::new();";
 "///";
 "/// set.insert(MyKey::Simple);";
 "/// set.insert(MyKey::Composite(Part::One));";
 "/// # #[cfg(feature = ""hashbrown"")]";
 "/// set.insert(MyKey::String(""foo""));";
 "/// # #[cfg(feature = ""hashbrown"")]";
 "/// set.insert(MyKey::Number(1));";
 "/// set.insert(MyKey::Singleton(()));";
 "/// set.insert(MyKey::Option(None));";
 "/// set.insert(MyKey::Option(Some(Part::One)));";
 "/// set.insert(MyKey::Boolean(true));";
 "///";
 "/// assert!(set.contains(MyKey::Simple));";
 "/// assert!(set.contains(MyKey::Composite(Part::One)));";
 "/// assert!(!set.contains(MyKey::Composite(Part::Two)));";
 "/// # #[cfg(feature = ""hashbrown"")]";
 "/// assert!(set.contains(MyKey::String(""foo"")));";
 "/// # #[cfg(feature = ""hashbrown"")]";
 "/// assert!(!set.contains(MyKey::String(""bar"")));";
 "/// # #[cfg(feature = ""hashbrown"")]";
 "/// assert!(set.contains(MyKey::Number(1)));";
 "/// # #[cfg(feature = ""hashbrown"")]";
 "/// assert!(!set.contains(MyKey::Number(2)));";
 "/// assert!(set.contains(MyKey::Singleton(())));";
 "/// assert!(set.contains(MyKey::Option(None)));";
 "/// assert!(set.contains(MyKey::Option(Some(Part::One))));";
 "/// assert!(!set.contains(MyKey::Option(Some(Part::Two))));";
 "/// assert!(set.contains(MyKey::Boolean(true)));";
 "/// assert!(!set.contains(MyKey::Boolean(false)));";
 "/// ```";
 "#[repr(transparent)]";
 "pub struct Set<T>";
 "where";
 "    T: Key,";
 "{";
 "    storage: T::SetStorage,";
 "}";
 "";
 "/// A set implementation that uses fixed storage.";
 "///";
 "/// # Examples";
 "///";
 "/// ```";
 "/// use fixed_map::{Key, Set};";
 "///";
 "/// #[derive(Clone, Copy, Key)]";
 "/// enum MyKey {";
 "///     First,";
 "///     Second,";
 "/// }";
 "///";
 "/// let mut m = Set::new();";
 "/// m.insert(MyKey::First);";
 "///";
 "/// assert_eq!(m.contains(MyKey::First), true);";
 "/// assert_eq!(m.contains(MyKey::Second), false);";
 "/// ```";
 "///";
 "/// Using a composite key:";
 "///";
 "/// ```";
 "/// use fixed_map::{Key, Set};";
 "///";
 "/// #[derive(Clone, Copy, Key)]";
 "/// enum Part {";
 "///     A,";
 "///     B,";
 "/// }";
 "///";
 "/// #[derive(Clone, Copy, Key)]";
 "/// enum MyKey {";
 "///     Simple,";
 "///     Composite(Part),";
 "/// }";
 "///";
 "/// let mut m = Set::new();";
 "/// m.insert(MyKey::Simple);";
 "/// m.insert(MyKey::Composite(Part::A));";
 "///";
 "/// assert_eq!(m.contains(MyKey::Simple), true);";
 "/// assert_eq!(m.contains(MyKey::Composite(Part::A)), true);";
 "/// assert_eq!(m.contains(MyKey::Composite(Part::B)), false);";
 "/// ```";
 "impl<T> Set<T>";
 "where";
 "    T: Key,";
 "{";
 "    /// Creates an empty [`Set`].";
 "    ///";
 "    /// # Examples";
 "    ///";
 "    /// ```";
 "    /// use fixed_map::{Key, Set};";
 "    ///";
 "    /// #[derive(Clone, Copy, Key)]";
 "    /// enum MyKey {";
 "    ///     One,";
 "    ///     Two,";
 "    /// }";
 "    ///";
 "    /// let set: Set<MyKey> = Set::new();";
 "    /// ```";
 "    #[inline]";
 "    #[must_use]";
 "    pub fn new() -> Set<T> {";
 "        Set {";
 "            storage: T::SetStorage::empty(),";
 "        }";
 "    }";
 "";
 "    /// An iterator visiting all values in arbitrary order.";
 "    /// The iterator element type is `T`.";
 "    ///";
 "    /// # Examples";
 "    ///";
 "    /// ```";
 "    /// use fixed_map::{Key, Set};";
 "    ///";
 "    /// #[derive(Debug, Clone, Copy, Key, PartialEq, Eq)]";
 "    /// enum MyKey {";
 "    ///     One,";
 "    ///     Two,";
 "    ///     Three,";
 "    /// }";
 "    ///";
 "    /// let mut set = Set::new();";
 "    /// set.insert(MyKey::One);";
 "    /// set.insert(MyKey::Two);";
 "    ///";
 "    /// assert_eq!(set.iter().collect::<Vec<_>>(), vec![MyKey::One, MyKey::Two]);";
 "    /// ```";
 "    #[inline]";
 "    pub fn iter(&self) -> Iter<'_, T> {";
 "        self.storage.iter()";
 "    }";
 "";
 "    /// Returns `true` if the set currently contains the given value.";
 "    ///";
 "    /// # Examples";
 "    ///";
 "    /// ```";
 "    /// use fixed_map::{Key, Set};";
 "    ///";
 "    /// #[derive(Clone, Copy, Key)]";
 "    /// enum MyKey {";
 "    ///     One,";
 "    ///     Two,";
 "    /// }";
 "    ///";
 "    /// let mut set = Set::new();";
 "    /// set.insert(MyKey::One);";
 "    /// assert_eq!(set.contains(MyKey::One), true);";
 "    /// assert_eq!(set.contains(MyKey::Two), false);";
 "    /// ```";
 "    #[inline]";
 "    pub fn contains(&self, value: T) -> bool {";
 "        self.storage.contains(value)";
 "    }";
 "";
 "    /// Adds a value to the set.";
 "    ///";
 "    /// If the set did not have this value present, `true` is returned.";
 "    ///";
 "    /// If the set did have this value present, `false` is returned.";
 "    ///";
 "    /// # Examples";
 "    ///";
 "    /// ```";
 "    /// use fixed_map::{Key, Set};";
 "    ///";
 "    /// #[derive(Clone, Copy, Key)]";
 "    /// enum MyKey {";
 "    ///     One,";
 "    ///     Two,";
 "    /// }";
 "    ///";
 "    /// let mut set = Set::new();";
 "    /// assert!(set.insert(MyKey::One));";
 "    /// assert!(!set.is_empty());";
 "    ///";
 "    /// set.insert(MyKey::Two);";
 "    /// assert!(!set.insert(MyKey::Two));";
 "    /// assert!(set.contains(MyKey::Two));";
 "    /// ```";
 "    #[inline]";
 "    pub fn insert(&mut self, value: T) -> bool {";
 "        self.storage.insert(value)";
 "    }";
 "";
 "    /// Removes a value from the set. Returns `true` if the value was";
 "    /// present in the set.";
 "    ///";
 "    /// # Examples";
 "    ///";
 "    /// ```";
 "    /// use fixed_map::{Key, Set};";
 "    ///";
 "    /// #[derive(Clone, Copy, Key)]";
 "    /// enum MyKey {";
 "    ///     One,";
 "    ///     Two,";
 "    /// }";
 "    ///";
 "    /// let mut set = Set::new();";
 "    /// set.insert(MyKey::One);";
 "    /// assert_eq!(set.remove(MyKey::One), true);";
 "    /// assert_eq!(set.remove(MyKey::One), false);";
 "    /// ```";
 "    #[inline]";
 "    pub fn remove(&mut self, value: T) -> bool {";
 "        self.storage.remove(value)";
 "    }";
 "";
 "    /// Retains only the elements specified by the predicate.";
 "    ///";
 "    /// In other words, remove all elements e for which f(e) returns false.";
 "    /// The elements are visited in unsorted (and unspecified) order.";
 "    ///";
 "    /// # Examples";
 "    ///";
 "    /// ```";
 "    /// use fixed_map::{Key, Set};";
 "    ///";
 "    /// #[derive(Clone, Copy, Key)]";
 "    /// enum MyKey {";
 "    ///     First,";
 "    ///     Second,";
 "    /// }";
 "    ///";
 "    /// let mut set = Set::new();";
 "    ///";
 "    /// set.insert(MyKey::First);";
 "    /// set.insert(MyKey::Second);";
 "    ///";
 "    /// set.retain(|k| matches!(k, MyKey::First));";
 "    ///";
 "    /// assert_eq!(set.len(), 1);";
 "    /// assert_eq!(set.contains(MyKey::First), true);";
 "    /// assert_eq!(set.contains(MyKey::Second), false);";
 "    /// ```";
 "    ///";
 "    /// Using a composite key:";
 "    ///";
 "    /// ```";
 "    /// use fixed_map::{Key, Set};";
 "    ///";
 "    /// #[derive(Clone, Copy, Key)]";
 "    /// enum MyKey {";
 "    ///     First(bool),";
 "    ///     Second(bool),";
 "    /// }";
 "    ///";
 "    /// let mut set = Set::new();";
 "    ///";
 "    /// set.insert(MyKey::First(true));";
 "    /// set.insert(MyKey::First(false));";
 "    /// set.insert(MyKey::Second(true));";
 "    /// set.insert(MyKey::Second(false));";
 "    ///";
 "    /// let mut other = set.clone();";
 "    /// assert_eq!(set.len(), 4);";
 "    ///";
 "    /// set.retain(|k| matches!(k, MyKey::First(true) | MyKey::Second(true)));";
 "    ///";
 "    /// assert_eq!(set.len(), 2);";
 "    /// assert_eq!(set.contains(MyKey::First(true)), true);";
 "    /// assert_eq!(set.contains(MyKey::First(false)), false);";
 "    /// assert_eq!(set.contains(MyKey::Second(true)), true);";
 "    /// assert_eq!(set.contains(MyKey::Second(false)), false);";
 "    ///";
 "    /// other.retain(|k| matches!(k, MyKey::First(_)));";
 "    ///";
 "    /// assert_eq!(other.len(), 2);";
 "    /// assert_eq!(other.contains(MyKey::First(true)), true);";
 "    /// assert_eq!(other.contains(MyKey::First(false)), true);";
 "    /// assert_eq!(other.contains(MyKey::Second(true)), false);";
 "    /// assert_eq!(other.contains(MyKey::Second(false)), false);";
 "    /// ```";
 "    #[inline]";
 "    pub fn retain<F>(&mut self, f: F)";
 "    where";
 "        F: FnMut(T) -> bool,";
 "    {";
 "        self.storage.retain(f);";
 "    }";
 "";
 "    /// Clears the set, removing all values.";
 "    ///";
 "    /// # Examples";
 "    ///";
 "    /// ```";
 "    /// use fixed_map::{Key, Set};";
 "    ///";
 "    /// #[derive(Clone, Copy, Key)]";
 "    /// enum MyKey {";
 "    ///     One,";
 "    ///     Two,";
 "    /// }";
 "    ///";
 "    /// let mut set = Set::new();";
 "    /// set.insert(MyKey::One);";
 "    /// set.clear();";
 "    /// assert!(set.is_empty());";
 "    /// ```";
 "    #[inline]";
 "    pub fn clear(&mut self) {";
 "        self.storage.clear();";
 "    }";
 "";
 "    /// Returns true if the set contains no elements.";
 "    ///";
 "    /// # Examples";
 "    ///";
 "    /// ```";
 "    /// use fixed_map::{Key, Set};";
 "    ///";
 "    /// #[derive(Clone, Copy, Key)]";
 "    /// enum MyKey {";
 "    ///     One,";
 "    ///     Two,";
 "    /// }";
 "    ///";
 "    /// let mut set = Set::new();";
 "    /// assert!(set.is_empty());";
 "    /// set.insert(MyKey::One);";
 "    /// assert!(!set.is_empty());";
 "    /// ```";
 "    #[inline]";
 "    pub fn is_empty(&self) -> bool {";
 "        self.storage.is_empty()";
 "    }";
 "";
 "    /// Returns the number of elements in the set.";
 "    ///";
 "    /// # Examples";
 "    ///";
 "    /// ```";
 "    /// use fixed_map::{Key, Set};";
 "    ///";
 "    /// #[derive(Clone, Copy, Key)]";
 "    /// enum MyKey {";
 "    ///     First,";
 "    ///     Second,";
 "    /// }";
 "    ///";
 "    /// let mut set = Set::new();";
 "    /// assert_eq!(set.len(), 0);";
 "    /// set.insert(MyKey::First);";
 "    /// assert_eq!(set.len(), 1);";
 "    /// ```";
 "    #[inline]";
 "    pub fn len(&self) -> usize {";
 "        self.storage.len()";
 "    }";
 "";
 "    /// Visits the values representing the intersection, i.e., the values that";
 "    /// are both in `self` and `other`.";
 "    ///";
 "    /// When an equal element is present in `self` and `other` then the";
 "    /// resulting `Intersection` may yield references to one or the other. This";
 "    /// can be relevant if `T` contains fields which are not compared by its";
 "    /// `Eq` implementation, and may hold different value between the two equal";
 "    /// copies of `T` in the two sets.";
 "    ///";
 "    /// # Examples";
 "    ///";
 "    /// ```";
 "    /// use fixed_map::{Key, Set};";
 "    ///";
 "    /// #[derive(Clone, Copy, Key, Debug)]";
 "    /// enum K {";
 "    ///     One,";
 "    ///     Two,";
 "    ///     Three,";
 "    /// }";
 "    ///";
 "    /// let a = Set::from([K::One]);";
 "    /// let b = Set::from([K::One, K::Two, K::Two]);";
 "    ///";
 "    /// let intersection = a.intersection(&b).collect::<Set<_>>();";
 "    /// assert_eq!(intersection, Set::from([K::One]));";
 "    /// ```";
 "    #[inline]";
 "    pub fn intersection<'a>(&'a self, other: &'a Set<T>) -> Intersection<'a, T> {";
 "        if self.len() <= other.len() {";
 "            Intersection {";
 "                iter: self.iter(),";
 "                other,";
 "            }";
 "        } else {";
 "            Intersection {";
 "                iter: other.iter(),";
 "                other: self,";
 "            }";
 "        }";
 "    }";
 "}";
 "";
 "impl<T> Set<T>";
 "where";
 "    T: Key,";
 "    T::SetStorage: RawStorage,";
 "{";
 "    /// Get the raw value of the set.";
 "    ///";
 "    /// # Examples";
 "    ///";
 "    /// ```";
 "    /// use fixed_map::{Key, Set};";
 "    ///";
 "    /// #[derive(Debug, Clone, Copy, Key)]";
 "    /// #[key(bitset)]";
 "    /// enum MyKey {";
 "    ///     First,";
 "    ///     Second,";
 "    /// }";
 "    ///";
 "    /// let mut set = Set::new();";
 "    /// assert!(set.as_raw() == 0);";
 "    /// set.insert(MyKey::First);";
 "    /// assert!(set.as_raw() != 0);";
 "    ///";
 "    /// let set2 = Set::from_raw(set.as_raw());";
 "    /// assert_eq!(set, set2);";
 "    /// ```";
 "    #[inline]";
 "    pub fn as_raw(&self) -> <T::SetStorage as RawStorage>::Value {";
 "        self.storage.as_raw()";
 "    }";
 "";
 "    /// Construct the set from a raw value.";
 "    ///";
 "    /// # Examples";
 "    ///";
 "    /// ```";
 "    /// use fixed_map::{Key, Set};";
 "    ///";
 "    /// #[derive(Debug, Clone, Copy, Key)]";
 "    /// #[key(bitset)]";
 "    /// enum MyKey {";
 "    ///     First,";
 "    ///     Second,";
 "    /// }";
 "    ///";
 "    /// let mut set = Set::new();";
 "    /// assert!(set.as_raw() == 0);";
 "    /// set.insert(MyKey::First);";
 "    /// assert!(set.as_raw() != 0);";
 "    ///";
 "    /// let set2 = Set::from_raw(set.as_raw());";
 "    /// assert_eq!(set, set2);";
 "    /// ```";
 "    #[inline]";
 "    pub fn from_raw(raw: <T::SetStorage as RawStorage>::Value) -> Self {";
 "        Self {";
 "            storage: <T::SetStorage as RawStorage>::from_raw(raw),";
 "        }";
 "    }";
 "}";
 "";
 "/// [`Clone`] implementation for a [`Set`].";
 "///";
 "/// # Examples";
 "///";
 "/// ```";
 "/// use fixed_map::{Key, Set};";
 "///";
 "/// #[derive(Debug, Clone, Copy, Key)]";
 "/// enum MyKey {";
 "///     First(bool),";
 "///     Second,";
 "/// }";
 "///";
 "/// let mut a = Set::new();";
 "/// a.insert(MyKey::First(true));";
 "/// let mut b = a.clone();";
 "/// b.insert(MyKey::Second);";
 "///";
 "/// assert_ne!(a, b);";
 "///";
 "/// assert!(a.contains(MyKey::First(true)));";
 "/// assert!(!a.contains(MyKey::Second));";
 "///";
 "/// assert!(b.contains(MyKey::First(true)));";
 "/// assert!(b.contains(MyKey::Second));";
 "/// ```";
 "impl<T> Clone for Set<T>";
 "where";
 "    T: Key,";
 "    T::SetStorage: Clone,";
 "{";
 "    #[inline]";
 "    fn clone(&self) -> Set<T> {";
 "        Set {";
 "            storage: self.storage.clone(),";
 "        }";
 "    }";
 "}";
 "";
 "/// The [`Copy`] implementation for a [`Set`] depends on its [`Key`]. If the";
 "/// derived key only consists of unit variants the corresponding [`Set`] will be";
 "/// [`Copy`] as well.";
 "///";
 "/// # Examples";
 "///";
 "/// ```";
 "/// use fixed_map::{Key, Set};";
 "///";
 "/// #[derive(Debug, Clone, Copy, Key)]";
 "/// enum MyKey {";
 "///     First,";
 "///     Second,";
 "/// }";
 "///";
 "/// let mut a = Set::new();";
 "/// a.insert(MyKey::First);";
 "/// let mut b = a;";
 "/// b.insert(MyKey::Second);";
 "///";
 "/// assert_ne!(a, b);";
 "///";
 "/// assert!(a.contains(MyKey::First));";
 "/// assert!(!a.contains(MyKey::Second));";
 "///";
 "/// assert!(b.contains(MyKey::First));";
 "/// assert!(b.contains(MyKey::Second));";
 "/// ```";
 "impl<T> Copy for Set<T>";
 "where";
 "    T: Key,";
 "    T::SetStorage: Copy,";
 "{";
 "}";
 "";
 "/// The [`Default`] implementation for a [`Set`] produces an empty set.";
 "///";
 "/// # Examples";
 "///";
 "/// ```";
 "/// use fixed_map::{Key, Set};";
 "///";
 "/// #[derive(Debug, Clone, Copy, Key)]";
 "/// enum MyKey {";
 "///     First,";
 "///     Second,";
 "/// }";
 "///";
 "/// let a = Set::<MyKey>::default();";
 "/// let b = Set::<MyKey>::new();";
 "///";
 "/// assert_eq!(a, b);";
 "/// ```";
 "impl<T> Default for Set<T>";
 "where";
 "    T: Key,";
 "{";
 "    #[inline]";
 "    fn default() -> Self {";
 "        Self::new()";
 "    }";
 "}";
 "";
 "/// The [`Debug`][fmt::Debug] implementation for a [`Set`].";
 "///";
 "/// # Examples";
 "///";
 "/// ```";
 "/// use fixed_map::{Key, Set};";
 "///";
 "/// #[derive(Debug, Clone, Copy, Key)]";
 "/// enum MyKey {";
 "///     First,";
 "///     Second,";
 "/// }";
 "///";
 "/// let mut a = Set::new();";
 "/// a.insert(MyKey::First);";
 "///";
 "/// assert_eq!(""{First}"", format!(""{:?}"", a));";
 "/// ```";
 "impl<T> fmt::Debug for Set<T>";
 "where";
 "    T: Key + fmt::Debug,";
 "{";
 "    #[inline]";
 "    fn fmt(&self, f: &mut fmt::Formatter<'_>) -> fmt::Result {";
 "        f.debug_set().entries(self.iter()).finish()";
 "    }";
 "}";
 "";
 "/// [`PartialEq`] implementation for a [`Set`].";
 "///";
 "/// # Examples";
 "///";
 "/// ```";
 "/// use fixed_map::{Key, Set};";
 "///";
 "/// #[derive(Debug, Clone, Copy, Key)]";
 "/// enum MyKey {";
 "///     First,";
 "///     Second,";
 "/// }";
 "///";
 "/// let mut a = Set::new();";
 "/// a.insert(MyKey::First);";
 "/// // Note: `a` is Copy since it's using a simple key.";
 "/// let mut b = a;";
 "///";
 "/// assert_eq!(a, b);";
 "///";
 "/// b.insert(MyKey::Second);";
 "/// assert_ne!(a, b);";
 "/// ```";
 "///";
 "/// Using a composite key:";
 "///";
 "/// ```";
 "/// use fixed_map::{Key, Set};";
 "///";
 "/// #[derive(Debug, Clone, Copy, Key)]";
 "/// enum MyKey {";
 "///     First(bool),";
 "///     Second,";
 "/// }";
 "///";
 "/// let mut a = Set::new();";
 "/// a.insert(MyKey::First(true));";
 "/// let mut b = a.clone();";
 "///";
 "/// assert_eq!(a, b);";
 "///";
 "/// b.insert(MyKey::Second);";
 "/// assert_ne!(a, b);";
 "/// ```";
 "impl<T> PartialEq for Set<T>";
 "where";
 "    T: Key,";
 "    T::SetStorage: PartialEq,";
 "{";
 "    #[inline]";
 "    fn eq(&self, other: &Self) -> bool {";
 "        self.storage == other.storage";
 "    }";
 "}";
 "";
 "impl<T> Eq for Set<T>";
 "where";
 "    T: Key,";
 "    T::SetStorage: Eq,";
 "{";
 "}";
 "";
 "/// [`Hash`] implementation for a [`Set`].";
 "///";
 "/// # Examples";
 "///";
 "/// ```";
 "/// use std::collections::HashSet;";
 "///";
 "/// use fixed_map::{Key, Set};";
 "///";
 "/// #[derive(Debug, Clone, Copy, Key, Hash)]";
 "/// enum MyKey {";
 "///     First,";
 "///     Second,";
 "/// }";
 "///";
 "/// let mut a = Set::new();";
 "/// a.insert(MyKey::First);";
 "///";
 "/// let mut set = HashSet::new();";
 "/// set.insert(a);";
 "/// ```";
 "///";
 "/// Using a composite key:";
 "///";
 "/// ```";
 "/// use std::collections::HashSet;";
 "///";
 "/// use fixed_map::{Key, Set};";
 "///";
 "/// #[derive(Debug, Clone, Copy, Key, Hash)]";
 "/// enum MyKey {";
 "///     First(bool),";
 "///     Second,";
 "/// }";
 "///";
 "/// let mut a = Set::new();";
 "/// a.insert(MyKey::First(true));";
 "///";
 "/// // TODO: support this";
 "/// // let mut set = HashSet::new();";
 "/// // set.insert(a);";
 "/// ```";
 "impl<T> Hash for Set<T>";
 "where";
 "    T: Key,";
 "    T::SetStorage: Hash,";
 "{";
 "    #[inline]";
 "    fn hash<H>(&self, state: &mut H)";
 "    where";
 "        H: Hasher,";
 "    {";
 "        self.storage.hash(state);";
 "    }";
 "}";
 "";
 "/// [`PartialOrd`] implementation for a [`Set`].";
 "///";
 "/// For more details on ordering, see the [`Key`] documentation.";
 "///";
 "/// # Examples";
 "///";
 "/// ```";
 "/// use fixed_map::{Key, Set};";
 "///";
 "/// #[derive(Debug, Clone, Copy, Key, Hash)]";
 "/// enum MyKey {";
 "///     First,";
 "///     Second,";
 "///     Third,";
 "/// }";
 "///";
 "/// let mut a = Set::new();";
 "/// a.insert(MyKey::First);";
 "///";
 "/// let mut b = Set::new();";
 "/// b.insert(MyKey::Third);";
 "///";
 "/// assert!(a < b);";
 "///";
 "/// let mut empty = Set::new();";
 "/// assert!(empty < a);";
 "/// assert!(empty < b);";
 "/// ```";
 "///";
 "/// Using a composite key:";
 "///";
 "/// ```";
 "/// use fixed_map::{Key, Set};";
 "///";
 "/// #[derive(Debug, Clone, Copy, Key, Hash)]";
 "/// enum MyKey {";
 "///     First(bool),";
 "///     Second,";
 "/// }";
 "///";
 "/// let mut a = Set::new();";
 "/// a.insert(MyKey::First(true));";
 "///";
 "/// let mut b = Set::new();";
 "/// b.insert(MyKey::Second);";
 "///";
 "/// // TODO: support this";
 "/// // assert!(a < b);";
 "/// ```";
 "impl<T> PartialOrd for Set<T>";
 "where";
 "    T: Key,";
 "    T::SetStorage: PartialOrd,";
 "{";
 "    #[inline]";
 "    fn partial_cmp(&self, other: &Self) -> Option<Ordering> {";
 "        self.storage.partial_cmp(&other.storage)";
 "    }";
 "";
 "    #[inline]";
 "    fn lt(&self, other: &Self) -> bool {";
 "        self.storage.lt(&other.storage)";
 "    }";
 "";
 "    #[inline]";
 "    fn le(&self, other: &Self) -> bool {";
 "        self.storage.le(&other.storage)";
 "    }";
 "";
 "    #[inline]";
 "    fn gt(&self, other: &Self) -> bool {";
 "        self.storage.gt(&other.storage)";
 "    }";
 "";
 "    #[inline]";
 "    fn ge(&self, other: &Self) -> bool {";
 "        self.storage.ge(&other.storage)";
 "    }";
 "}";
 "";
 "/// [`Ord`] implementation for a [`Set`].";
 "///";
 "/// For more details on ordering, see the [`Key`] documentation.";
 "///";
 "/// # Examples";
 "///";
 "/// ```";
 "/// use fixed_map::{Key, Set};";
 "///";
 "/// #[derive(Debug, Clone, Copy, Key, Hash)]";
 "/// enum MyKey {";
 "///     First,";
 "///     Second,";
 "/// }";
 "///";
 "/// let mut a = Set::new();";
 "/// a.insert(MyKey::First);";
 "///";
 "/// let mut b = Set::new();";
 "/// b.insert(MyKey::Second);";
 "///";
 "/// let mut list = vec![b, a];";
 "/// list.sort();";
 "///";
 "/// assert_eq!(list, [a, b]);";
 "/// ```";
 "///";
 "/// Using a composite key:";
 "///";
 "/// ```";
 "/// use fixed_map::{Key, Set};";
 "///";
 "/// #[derive(Debug, Clone, Copy, Key, Hash)]";
 "/// enum MyKey {";
 "///     First(bool),";
 "///     Second,";
 "/// }";
 "///";
 "/// let mut a = Set::new();";
 "/// a.insert(MyKey::First(true));";
 "///";
 "/// let mut b = Set::new();";
 "/// b.insert(MyKey::Second);";
 "///";
 "/// // TODO: support this";
 "/// // let mut list = vec![a, b];";
 "/// // list.sort();";
 "/// ```";
 "impl<T> Ord for Set<T>";
 "where";
 "    T: Key,";
 "    T::SetStorage: Ord,";
 "{";
 "    #[inline]";
 "    fn cmp(&self, other: &Self) -> Ordering {";
 "        self.storage.cmp(&other.storage)";
 "    }";
 "";
 "    #[inline]";
 "    fn max(self, other: Self) -> Self {";
 "        Self {";
 "            storage: self.storage.max(other.storage),";
 "        }";
 "    }";
 "";
 "    #[inline]";
 "    fn min(self, other: Self) -> Self {";
 "        Self {";
 "            storage: self.storage.min(other.storage),";
 "        }";
 "    }";
 "";
 "    #[inline]";
 "    fn clamp(self, min: Self, max: Self) -> Self {";
 "        Self {";
 "            storage: self.storage.clamp(min.storage, max.storage),";
 "        }";
 "    }";
 "}";
 "";
 "impl<'a, T> IntoIterator for &'a Set<T>";
 "where";
 "    T: Key,";
 "{";
 "    type Item = T;";
 "    type IntoIter = Iter<'a, T>;";
 "";
 "    #[inline]";
 "    fn into_iter(self) -> Self::IntoIter {";
 "        self.iter()";
 "    }";
 "}";
 "";
 "/// Produce an owning iterator which iterates over all elements in the set in";
 "/// order.";
 "///";
 "/// # Examples";
 "///";
 "/// ```";
 "/// use fixed_map::{Key, Set};";
 "///";
 "/// #[derive(Debug, Clone, Copy, Key, PartialEq, Eq)]";
 "/// enum MyKey {";
 "///     First,";
 "///     Second,";
 "///     Third,";
 "/// }";
 "///";
 "/// let mut set = Set::new();";
 "/// set.insert(MyKey::First);";
 "/// set.insert(MyKey::Second);";
 "///";
 "/// assert_eq!(set.into_iter().collect::<Vec<_>>(), vec![MyKey::First, MyKey::Second]);";
 "/// ```";
 "impl<T> IntoIterator for Set<T>";
 "where";
 "    T: Key,";
 "{";
 "    type Item = T;";
 "    type IntoIter = IntoIter<T>;";
 "";
 "    /// An iterator visiting all values in arbitrary order.";
 "    /// The iterator element type is `T`.";
 "    ///";
 "    /// # Examples";
 "    ///";
 "    /// ```";
 "    /// use fixed_map::{Key, Set};";
 "    ///";
 "    /// #[derive(Debug, Clone, Copy, Key, PartialEq, Eq)]";
 "    /// enum MyKey {";
 "    ///     One,";
 "    ///     Two,";
 "    ///     Three,";
 "    /// }";
 "    ///";
 "    /// let mut set = Set::new();";
 "    /// set.insert(MyKey::One);";
 "    /// set.insert(MyKey::Two);";
 "    ///";
 "    /// assert_eq!(set.into_iter().collect::<Vec<_>>(), vec![MyKey::One, MyKey::Two]);";
 "    /// ```";
 "    #[inline]";
 "    fn into_iter(self) -> Self::IntoIter {";
 "        self.storage.into_iter()";
 "    }";
 "}";
 "";
 "impl<T> FromIterator<T> for Set<T>";
 "where";
 "    T: Key,";
 "{";
 "    #[inline]";
 "    fn from_iter<I>(iter: I) -> Self";
 "    where";
 "        I: IntoIterator<Item = T>,";
 "    {";
 "        let mut set = Self::new();";
 "";
 "        for value in iter {";
 "            set.insert(value);";
 "        }";
 "";
 "        set";
 "    }";
 "}";
 "";
 "#[cfg(feature = ""serde"")]";
 "impl<T> serde::Serialize for Set<T>";
 "where";
 "    T: Key + serde::Serialize,";
 "{";
 "    #[inline]";
 "    fn serialize<S>(&self, serializer: S) -> Result<S::Ok, S::Error>";
 "    where";
 "        S: serde::Serializer,";
 "    {";
 "        use serde::ser::SerializeSeq as _;";
 "";
 "        let mut seq = serializer.serialize_seq(Some(self.len()))?;";
 "";
 "        for v in self {";
 "            seq.serialize_element(&v)?;";
 "        }";
 "";
 "        seq.end()";
 "    }";
 "}";
 "";
 "#[cfg(feature = ""serde"")]";
 "impl<'de, T> serde::de::Deserialize<'de> for Set<T>";
 "where";
 "    T: Key + serde::de::Deserialize<'de>,";
 "{";
 "    #[inline]";
 "    fn deserialize<D>(deserializer: D) -> Result<Self, D::Error>";
 "    where";
 "        D: serde::Deserializer<'de>,";
 "    {";
 "        struct SeqVisitor<T>(core::marker::PhantomData<T>);";
 "";
 "        impl<'de, T> serde::de::Visitor<'de> for SeqVisitor<T>";
 "        where";
 "            T: Key + serde::de::Deserialize<'de>,";
 "        {";
 "            type Value = Set<T>;";
 "";
 "            fn expecting(&self, formatter: &mut fmt::Formatter<'_>) -> fmt::Result {";
 "                formatter.write_str(""a sequence"")";
 "            }";
 "";
 "            #[inline]";
 "            fn visit_seq<V>(self, mut visitor: V) -> Result<Self::Value, V::Error>";
 "            where";
 "                V: serde::de::SeqAccess<'de>,";
 "            {";
 "                let mut set = Set::new();";
 "";
 "                while let Some(elem) = visitor.next_element()? {";
 "                    set.insert(elem);";
 "                }";
 "";
 "                Ok(set)";
 "            }";
 "        }";
 "";
 "        deserializer.deserialize_seq(SeqVisitor(core::marker::PhantomData))";
 "    }";
 "}";
 "";
 "impl<T, const N: usize> From<[T; N]> for Set<T>";
 "where";
 "    T: Key,";
 "{";
 "    /// # Examples";
 "    ///";
 "    /// ```";
 "    /// use fixed_map::{Key, Set};";
 "    ///";
 "    /// #[derive(Debug, Clone, Copy, Key, PartialEq, Eq)]";
 "    /// enum K {";
 "    ///     One,";
 "    ///     Two,";
 "    ///     Three,";
 "    /// }";
 "    ///";
 "    /// let set1 = Set::from([K::One, K::Two, K::Three]);";
 "    /// let set2: Set<_> = [K::One, K::Two, K::Three].into();";
 "    /// assert_eq!(set1, set2);";
 "    /// ```";
 "    fn from(arr: [T; N]) -> Self {";
 "        Self::from_iter(arr)";
 "    }";
 "}"].
