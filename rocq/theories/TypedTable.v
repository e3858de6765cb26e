(** The property lists of svgpy/css/types.py, copied from its text: 39-47 and 51-56, and those of
    CSSStyleValue._reify_css_style_value (630-771). *)
From Coq Require Import List String.
From Verif Require Import PyBase PyText.
Import ListNotations.
#[local] Open Scope string_scope.

Definition names (l : list string) : list text := map lit l.
Definition list_valued_properties : list text := names [
  "animation"; "animation-delay"; "animation-direction"; "animation-duration"; "animation-fill-mode";
  "animation-iteration-count"; "animation-name"; "animation-play-state"; "animation-timing-function";
  "background-attachment"; "background-clip"; "background-image"; "background-origin"; "background-repeat";
  "background-size"; "font-family"; "mask"; "mask-clip"; "mask-composite"; "mask-image"; "mask-mode";
  "mask-origin"; "mask-position"; "mask-repeat"; "mask-size"].
Definition single_multi_valued_properties : list text := names [
  "d"; "font"; "font-family"; "font-feature-settings"; "font-variation-settings"; "mask"; "mask-clip";
  "mask-composite"; "mask-image"; "mask-mode"; "mask-origin"; "mask-position"; "mask-repeat"; "mask-size";
  "shape-inside"; "stroke-dasharray"].
(* values of these are always keywords *)
Definition keyword_properties : list text := names [
  "alignment-baseline"; "all"; "animation-composition"; "appearance"; "backface-visibility";
  "background-attachment"; "background-blend-mode"; "background-clip"; "background-image-transform";
  "block-step-align"; "block-step-insert"; "block-step-round"; "bookmark-state"; "border-boundary";
  "border-collapse"; "border-image-transform"; "border-top-style"; "box-decoration-break"; "box-sizing";
  "caret-shape"; "clear"; "color-adjust"; "color-interpolation"; "color-rendering"; "column-gap";
  "column-span"; "contain"; "content"; "continue"; "copy-into"; "counter-increment"; "counter-reset";
  "counter-set"; "cue"; "cue-after"; "cue-before"; "cursor"; "d"; "direction"; "display"; "dominant-baseline";
  "elevation"; "empty-cells"; "fill"; "fill-break"; "fill-color"; "fill-image"; "fill-origin"; "fill-position";
  "fill-repeat"; "fill-rule"; "fill-size"; "filter-margin-top"; "filter-margin-right"; "filter-margin-bottom";
  "filter-margin-left"; "flex"; "flex-basis"; "flex-direction"; "flex-flow"; "flex-grow"; "flex-shrink";
  "flex-wrap"; "float"; "font-optical-sizing"; "font-presentation"; "font-style"; "list-style-position";
  "outline-offset"; "outline-style"; "overflow-anchor"; "overflow-x"; "overflow-y"; "page"; "page-break-after";
  "page-break-before"; "page-break-inside"; "paint-order"; "pause"; "pause-after"; "pause-before";
  "perspective"; "perspective-origin"; "pitch"; "pitch-range"; "place-content"; "place-items"; "place-self";
  "play-during"; "pointer-events"; "position"; "presentation-level"; "quotes"; "region-fragment"; "resize";
  "rotate"; "row-gap"; "ruby-align"; "ruby-merge"; "ruby-position"; "scale"; "scroll-behavior";
  "scroll-margin"; "scroll-margin-block"; "scroll-margin-block-end"; "scroll-margin-block-start";
  "scroll-margin-bottom"; "scroll-margin-inline"; "scroll-margin-inline-end"; "scroll-margin-inline-start";
  "scroll-margin-left"; "scroll-margin-right"; "scroll-margin-top"; "scroll-padding"; "scroll-padding-block";
  "scroll-padding-block-end"; "scroll-padding-block-start"; "scroll-padding-bottom"; "scroll-padding-inline";
  "scroll-padding-inline-end"; "scroll-padding-inline-start"; "scroll-padding-left"; "scroll-padding-right";
  "scroll-padding-top"; "scroll-snap-align"; "scroll-snap-stop"; "scroll-snap-type"; "scrollbar-3dlight-color";
  "scrollbar-arrow-color"; "scrollbar-base-color"; "scrollbar-darkshadow-color"; "scrollbar-face-color";
  "scrollbar-gutter"; "scrollbar-highlight-color"; "scrollbar-shadow-color"; "scrollbar-track-color";
  "shape-inside"; "shape-rendering"; "shape-subtract"; "size"; "solid-color"; "solid-opacity"; "speak";
  "speak-as"; "speak-header"; "speak-numeral"; "speak-punctuation"; "speech-rate"; "stop-color"; "stress";
  "stroke"; "stroke-align"; "stroke-break"; "stroke-color"; "stroke-dash-corner"; "stroke-dash-justify";
  "stroke-dasharray"; "stroke-image"; "stroke-linecap"; "stroke-linejoin"; "stroke-origin"; "stroke-position";
  "stroke-repeat"; "stroke-size"; "table-layout"; "text-align"; "text-anchor"; "text-combine-upright";
  "text-decoration"; "text-decoration-color"; "text-decoration-fill"; "text-decoration-line";
  "text-decoration-skip"; "text-decoration-skip-ink"; "text-decoration-stroke"; "text-emphasis-skip";
  "text-orientation"; "text-overflow"; "text-rendering"; "text-size-adjust"; "text-transform"; "visibility";
  "voice-balance"; "voice-duration"; "voice-family"; "voice-pitch"; "voice-range"; "voice-rate";
  "voice-stress"; "voice-volume"; "volume"; "white-space"].
(* values of these are always plain style values *)
Definition plain_properties : list text := names [
  "background"; "background-color"; "block-step"; "bookmark-label"; "border"; "border-block";
  "border-block-color"; "border-block-end"; "border-block-start"; "border-block-style"; "border-block-width";
  "border-bottom"; "border-color"; "border-inline"; "border-inline-color"; "border-inline-end";
  "border-inline-end-color"; "border-inline-end-style"; "border-inline-end-width"; "border-inline-start";
  "border-inline-start-color"; "border-inline-start-style"; "border-inline-start-width"; "border-inline-style";
  "border-inline-width"; "border-left"; "border-radius"; "border-right"; "border-spacing"; "border-style";
  "border-top"; "border-width"; "float-defer"; "font"; "font-family"; "font-variant"; "list-style-type";
  "margin"; "outline-width"; "overflow"; "overflow-x"; "overflow-y"; "padding"].
